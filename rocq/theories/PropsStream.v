(* Properties of the messages of streamed answers: C52. *)
From Coq Require Import String.
From Verif Require Import Rust Storage StorageSpec Gorilla GorillaSpec Proto ProtoSpec ProtoProofs ProtoRound Stream StreamSpec StreamProofs PropsProto.
Local Notation length := List.length.

(* two chunks, one with data that is no text and a time before 1970; unknown fields at every level *)
Definition ex_labels : plabels := mkPLabels [mkPLabel (s2b "job") [195; 169] []; mkPLabel [] (s2b "x") [(3, UFixed32 7)]] [(2, UBytes [])].
Definition ex_pchunk : pchunk := mkPChunk (-5) (2 ^ 63 - 1) XOR [255; 0; 128] [(5, UVarint 3)].
Definition ex_stream : cresponse :=
  mkCResp [mkCSeries (pls_labels ex_labels) [ex_pchunk; mkPChunk 0 0 UNKNOWN [] []; ex_pchunk] [(3, UFixed64 1)]; mkCSeries [] [] []] (-1) [(9, UVarint 300)].
Lemma ex_labels_ok : plabels_ok ex_labels.
Proof. split; cbn [ex_labels pls_labels pls_unk]; ok_tac. Qed.
Lemma ex_pchunk_ok : pchunk_ok ex_pchunk.
Proof. unfold pchunk_ok. cbn [ex_pchunk pc_min pc_max pc_data pc_unk]. ok_tac. Qed.
Lemma ex_stream_ok : cresponse_ok ex_stream.
Proof.
  split; [|split; cbn [ex_stream cr_index cr_unk]; ok_tac]. cbn [ex_stream cr_series]. apply Forall_cons; [|apply Forall_cons; [|apply Forall_nil]].
  - split; [exact (proj1 ex_labels_ok)|]. split; cbn [cs_chunks cs_unk]; [|ok_tac].
    apply Forall_cons; [exact ex_pchunk_ok|]. apply Forall_cons; [|apply Forall_cons; [exact ex_pchunk_ok|apply Forall_nil]].
    unfold pchunk_ok. cbn [pc_min pc_max pc_data pc_unk]. ok_tac.
  - split; [|split]; cbn [cs_labels cs_chunks cs_unk]; ok_tac.
Qed.

(* C52, every message of a streamed answer is read back as it was *)
Theorem C52_labels : forall m, plabels_ok m -> plabels_size m < 2 ^ 32 ->
  merge_from plabels_read (plabels_write m) plabels_new = (m, true).
Proof. exact plabels_whole. Qed.
Print Assumptions C52_labels.
Theorem C52_chunk : forall m, pchunk_ok m -> pchunk_size m < 2 ^ 32 ->
  merge_from pchunk_read (pchunk_write m) pchunk_new = (m, true).
Proof. exact pchunk_whole. Qed.
Print Assumptions C52_chunk.
Theorem C52_chunked_series : forall m, cseries_ok m -> cseries_size m < 2 ^ 32 ->
  merge_from cseries_read (cseries_write m) cseries_new = (m, true).
Proof. exact cseries_whole. Qed.
Print Assumptions C52_chunked_series.
Theorem C52_chunked_response : forall m, cresponse_ok m -> cresponse_size m < 2 ^ 32 ->
  merge_from cresponse_read (cresponse_write m) cresponse_new = (m, true).
Proof. exact cresponse_whole. Qed.
Print Assumptions C52_chunked_response.
Theorem C52_stream_sizes : forall a b c d, plabels_ok a -> pchunk_ok b -> cseries_ok c -> cresponse_ok d ->
  Z.of_nat (length (plabels_write a)) = plabels_size a /\ Z.of_nat (length (pchunk_write b)) = pchunk_size b /\
  Z.of_nat (length (cseries_write c)) = cseries_size c /\ Z.of_nat (length (cresponse_write d)) = cresponse_size d.
Proof.
  intros a b c d Ha Hb Hc Hd. split; [now apply plabels_length|]. split; [now apply pchunk_length|].
  split; [now apply cseries_length|now apply cresponse_length].
Qed.
Print Assumptions C52_stream_sizes.
Example C52_stream_case :
  plabels_ok ex_labels /\ plabels_size ex_labels < 2 ^ 32 /\ pchunk_ok ex_pchunk /\ pchunk_size ex_pchunk < 2 ^ 32 /\
  cresponse_ok ex_stream /\ cresponse_size ex_stream < 2 ^ 32 /\ Forall cseries_ok (cr_series ex_stream) /\
  cresponse_write (mkCResp [mkCSeries [mkPLabel (s2b "a") (s2b "b") []] [mkPChunk 1 300 XOR [255; 0] []] []] 2 []) =
    [10; 21; 10; 6; 10; 1; 97; 18; 1; 98; 18; 11; 8; 1; 16; 172; 2; 24; 1; 34; 2; 255; 0; 16; 2].
Proof.
  split; [exact ex_labels_ok|]. split; [reflexivity|]. split; [exact ex_pchunk_ok|]. split; [reflexivity|].
  split; [exact ex_stream_ok|]. split; [reflexivity|]. split; [exact (proj1 ex_stream_ok)|reflexivity].
Qed.

(* a chunk of an encoding this version does not know is read without it, and written again with it *)
Theorem C52_later_encoding : forall v d, 2 <= v < 2 ^ 31 -> Z.of_nat (length d) < 2 ^ 32 ->
  let data := opt (nonempty d) (w_string 4 d) in
  let m := mkPChunk 0 0 UNKNOWN d [(3, UVarint v)] in
  merge_from pchunk_read (w_enum 3 v ++ data) pchunk_new = (m, true) /\ pchunk_write m = data ++ w_enum 3 v.
Proof. exact pchunk_later. Qed.
Print Assumptions C52_later_encoding.
Example C52_later_case : w_enum 3 2 ++ opt true (w_string 4 [7]) = [24; 2; 34; 1; 7].
Proof. reflexivity. Qed.
