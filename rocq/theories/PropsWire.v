(* Properties of reading messages: C65. *)
From Coq Require Import String.
From Verif Require Import Rust StorageSpec Proto ProtoSpec Stream StreamSpec WireSpec WireProofs WireMsgs WireWrong WireWritten
  ProtoRound StreamProofs PropsProto PropsStream.
Local Notation length := List.length.

(** C65: a body is taken exactly when it is a protobuf encoding, by whatever client, of a message of
    its type, and then as the message it stands for *)
Lemma whole {M} (r : reader M) d of new : reads_as r d of -> new = of [] -> forall b m, Forall is_byte b -> Z.of_nat (length b) < 2 ^ 64 ->
  (merge_from r b new = (m, true) <-> exists fs, body_in d b fs /\ m = of fs).
Proof. intros R -> b m Hb Hl. unfold merge_from, body_in. rewrite (R _ b [] m); [reflexivity|lia|assumption]. Qed.
Theorem C65_write_request : forall b m, Forall is_byte b -> Z.of_nat (length b) < 2 ^ 64 ->
  (merge_from write_request_read b write_request_new = (m, true) <-> exists fs, body_in write_request_desc b fs /\ m = write_request_of fs).
Proof. exact (whole _ _ _ _ write_request_reads eq_refl). Qed.
Print Assumptions C65_write_request.
Theorem C65_read_request : forall b m, Forall is_byte b -> Z.of_nat (length b) < 2 ^ 64 ->
  (merge_from read_request_read b read_request_new = (m, true) <-> exists fs, body_in read_request_desc b fs /\ m = read_request_of fs).
Proof. exact (whole _ _ _ _ read_request_reads eq_refl). Qed.
Print Assumptions C65_read_request.
Theorem C65_read_response : forall b m, Forall is_byte b -> Z.of_nat (length b) < 2 ^ 64 ->
  (merge_from read_response_read b read_response_new = (m, true) <-> exists fs, body_in read_response_desc b fs /\ m = read_response_of fs).
Proof. exact (whole _ _ _ _ read_response_reads eq_refl). Qed.
Print Assumptions C65_read_response.
Theorem C65_chunked_response : forall b m, Forall is_byte b -> Z.of_nat (length b) < 2 ^ 64 ->
  (merge_from cresponse_read b cresponse_new = (m, true) <-> exists fs, body_in cresponse_desc b fs /\ m = cresponse_of fs).
Proof. exact (whole _ _ _ _ cresponse_reads eq_refl). Qed.
Print Assumptions C65_chunked_response.
(* the messages they are made of, on their own *)
Theorem C65_parts : forall b, Forall is_byte b -> Z.of_nat (length b) < 2 ^ 64 ->
  (forall m, merge_from sample_read b sample_new = (m, true) <-> exists fs, body_in sample_desc b fs /\ m = sample_of fs) /\
  (forall m, merge_from plabel_read b plabel_new = (m, true) <-> exists fs, body_in plabel_desc b fs /\ m = plabel_of fs) /\
  (forall m, merge_from pseries_read b pseries_new = (m, true) <-> exists fs, body_in pseries_desc b fs /\ m = pseries_of fs) /\
  (forall m, merge_from matcher_read b matcher_new = (m, true) <-> exists fs, body_in matcher_desc b fs /\ m = matcher_of fs) /\
  (forall m, merge_from hints_read b hints_new = (m, true) <-> exists fs, body_in hints_desc b fs /\ m = hints_of fs) /\
  (forall m, merge_from pquery_read b pquery_new = (m, true) <-> exists fs, body_in pquery_desc b fs /\ m = pquery_of fs) /\
  (forall m, merge_from query_result_read b query_result_new = (m, true) <-> exists fs, body_in query_result_desc b fs /\ m = query_result_of fs) /\
  (forall m, merge_from plabels_read b plabels_new = (m, true) <-> exists fs, body_in plabels_desc b fs /\ m = plabels_of fs) /\
  (forall m, merge_from pchunk_read b pchunk_new = (m, true) <-> exists fs, body_in pchunk_desc b fs /\ m = pchunk_of fs) /\
  (forall m, merge_from cseries_read b cseries_new = (m, true) <-> exists fs, body_in cseries_desc b fs /\ m = cseries_of fs).
Proof.
  intros b Hb Hl.
  split; [intros m; now apply (whole _ _ _ _ sample_reads)|]. split; [intros m; now apply (whole _ _ _ _ plabel_reads)|].
  split; [intros m; now apply (whole _ _ _ _ pseries_reads)|]. split; [intros m; now apply (whole _ _ _ _ matcher_reads)|].
  split; [intros m; now apply (whole _ _ _ _ hints_reads)|]. split; [intros m; now apply (whole _ _ _ _ pquery_reads)|].
  split; [intros m; now apply (whole _ _ _ _ query_result_reads)|]. split; [intros m; now apply (whole _ _ _ _ plabels_reads)|].
  split; [intros m; now apply (whole _ _ _ _ pchunk_reads)|]. intros m; now apply (whole _ _ _ _ cseries_reads).
Qed.
Print Assumptions C65_parts.
(* text is UTF-8: no surrogates, nothing beyond U+10FFFF, no longer form than needed *)
Theorem C65_text : forall b, Forall is_byte b -> (utf8 b = true <-> unicode b).
Proof. exact utf8_iff. Qed.
Print Assumptions C65_text.

(* any other body is given up at its first fault; what was taken before is kept *)
Lemma wholes {M} (r : reader M) d of new : wrongs_as r d of -> new = of [] -> forall b m, Forall is_byte b -> Z.of_nat (length b) < 2 ^ 64 ->
  (merge_from r b new = (m, false) <-> exists fs, stops_in d b fs /\ m = of fs).
Proof. intros R -> b m Hb Hl. unfold merge_from, stops_in. rewrite (R _ b [] m); [reflexivity|lia|assumption]. Qed.
Theorem C65_stops_write_request : forall b m, Forall is_byte b -> Z.of_nat (length b) < 2 ^ 64 ->
  (merge_from write_request_read b write_request_new = (m, false) <-> exists fs, stops_in write_request_desc b fs /\ m = write_request_of fs).
Proof. exact (wholes _ _ _ _ write_request_wrongs eq_refl). Qed.
Print Assumptions C65_stops_write_request.
Theorem C65_stops_read_request : forall b m, Forall is_byte b -> Z.of_nat (length b) < 2 ^ 64 ->
  (merge_from read_request_read b read_request_new = (m, false) <-> exists fs, stops_in read_request_desc b fs /\ m = read_request_of fs).
Proof. exact (wholes _ _ _ _ read_request_wrongs eq_refl). Qed.
Print Assumptions C65_stops_read_request.
Theorem C65_stops_read_response : forall b m, Forall is_byte b -> Z.of_nat (length b) < 2 ^ 64 ->
  (merge_from read_response_read b read_response_new = (m, false) <-> exists fs, stops_in read_response_desc b fs /\ m = read_response_of fs).
Proof. exact (wholes _ _ _ _ read_response_wrongs eq_refl). Qed.
Print Assumptions C65_stops_read_response.
Theorem C65_stops_chunked_response : forall b m, Forall is_byte b -> Z.of_nat (length b) < 2 ^ 64 ->
  (merge_from cresponse_read b cresponse_new = (m, false) <-> exists fs, stops_in cresponse_desc b fs /\ m = cresponse_of fs).
Proof. exact (wholes _ _ _ _ cresponse_wrongs eq_refl). Qed.
Print Assumptions C65_stops_chunked_response.
(* so every body is an encoding or goes wrong somewhere, and never both *)
Theorem C65_encoding_or_stops : forall b, Forall is_byte b -> Z.of_nat (length b) < 2 ^ 64 ->
  ((exists fs, body_in write_request_desc b fs) \/ (exists fs, stops_in write_request_desc b fs)) /\
  ~ ((exists fs, body_in write_request_desc b fs) /\ (exists fs, stops_in write_request_desc b fs)) /\
  ((exists fs, body_in read_request_desc b fs) \/ (exists fs, stops_in read_request_desc b fs)) /\
  ~ ((exists fs, body_in read_request_desc b fs) /\ (exists fs, stops_in read_request_desc b fs)).
Proof.
  intros b Hb Hl. split; [|split; [|split]].
  - destruct (merge_from write_request_read b write_request_new) as [m []] eqn:E; [left; apply C65_write_request in E as (fs & E & _)|right; apply C65_stops_write_request in E as (fs & E & _)]; eauto.
  - intros [(fs & E) (gs & F)].
    assert (Q: merge_from write_request_read b write_request_new = (write_request_of fs, true)) by (apply C65_write_request; eauto).
    assert (R: merge_from write_request_read b write_request_new = (write_request_of gs, false)) by (apply C65_stops_write_request; eauto). congruence.
  - destruct (merge_from read_request_read b read_request_new) as [m []] eqn:E; [left; apply C65_read_request in E as (fs & E & _)|right; apply C65_stops_read_request in E as (fs & E & _)]; eauto.
  - intros [(fs & E) (gs & F)].
    assert (Q: merge_from read_request_read b read_request_new = (read_request_of fs, true)) by (apply C65_read_request; eauto).
    assert (R: merge_from read_request_read b read_request_new = (read_request_of gs, false)) by (apply C65_stops_read_request; eauto). congruence.
Qed.
Print Assumptions C65_encoding_or_stops.
(* what the crate itself writes is an encoding of what was to be written, but for negative zeros (C52) *)
Theorem C65_written : forall a b c d, write_request_ok a -> write_request_size a < 2 ^ 32 -> read_request_ok b -> read_request_size b < 2 ^ 32 ->
  read_response_ok c -> read_response_size c < 2 ^ 32 -> cresponse_ok d -> cresponse_size d < 2 ^ 32 ->
  (exists fs, body_in write_request_desc (write_request_write a) fs /\ write_request_back a = write_request_of fs) /\
  (exists fs, body_in read_request_desc (read_request_write b) fs /\ b = read_request_of fs) /\
  (exists fs, body_in read_response_desc (read_response_write c) fs /\ read_response_back c = read_response_of fs) /\
  (exists fs, body_in cresponse_desc (cresponse_write d) fs /\ d = cresponse_of fs).
Proof.
  intros a b c d Ha Sa Hb Sb Hc Sc Hd Sd. split; [|split; [|split]].
  - apply C65_write_request; [now apply write_request_b|rewrite write_request_length by assumption; lia|now apply write_request_round].
  - apply C65_read_request; [now apply read_request_b|rewrite read_request_length by assumption; lia|now apply read_request_round].
  - apply C65_read_response; [now apply read_response_b|rewrite read_response_length by assumption; lia|now apply read_response_round].
  - apply C65_chunked_response; [now apply cresponse_b|rewrite cresponse_length by assumption; lia|now apply cresponse_whole].
Qed.
Print Assumptions C65_written.

(* A write request as no client of this crate writes it: a point before the labels, a label's value
   before its name, the name given twice, tags and lengths longer than needed, an unknown group with
   fields, an unknown number, and the last series cut off in the middle, after a label. *)
Definition ex_odd : bytes :=
  [10; 32; 18; 11; 16; 255; 255; 255; 255; 255; 255; 255; 255; 255; 1;
   10; 17; 18; 2; 195; 169; 10; 1; 120; 138; 0; 1; 97; 59; 8; 1; 60; 40; 5;
   138; 128; 0; 200; 1; 10; 3; 10; 1; 98].
Definition ex_meant : write_request :=
  mkWriteReq [mkPSeries [mkPLabel (s2b "a") [195; 169] [(5, UVarint 5)]] [mkSample 0 (-1) []] [];
              mkPSeries [mkPLabel (s2b "b") [] []] [] []] [].
(* A read request with its response types packed, one of them of a later version, and one not packed. *)
Definition ex_packed : bytes := [18; 3; 1; 5; 0; 16; 1; 10; 2; 8; 7; 10; 0].
Definition ex_packed_meant : read_request :=
  mkReadReq [mkPQuery 7 0 [] None []; mkPQuery 0 0 [] None []] [STREAMED_XOR_CHUNKS; SAMPLES; STREAMED_XOR_CHUNKS] [(2, UVarint 5)].
(* A write request cut off in a point, after its time and before its value: a point with value zero is taken. *)
Definition ex_stopped : bytes := [10; 20; 10; 3; 10; 1; 97; 18; 12; 16; 225; 8; 9; 1; 0].
Definition ex_stopped_taken : write_request := mkWriteReq [mkPSeries [mkPLabel (s2b "a") [] []] [mkSample 0 1121 []] []] [].
Ltac bytes_tac := repeat constructor; unfold is_byte; lia.
Example C65_case :
  Forall is_byte ex_odd /\ Z.of_nat (length ex_odd) < 2 ^ 64 /\
  (exists fs, body_in write_request_desc ex_odd fs /\ ex_meant = write_request_of fs) /\
  Forall is_byte ex_packed /\ Z.of_nat (length ex_packed) < 2 ^ 64 /\
  (exists fs, body_in read_request_desc ex_packed fs /\ ex_packed_meant = read_request_of fs) /\
  (* a series cut off in a name; a number where text belongs; a surrogate as text *)
  (forall b, In b [[10; 3; 10; 1; 10]; [10; 2; 8; 1]; [10; 7; 10; 5; 10; 3; 237; 160; 128]] -> ~ exists fs, body_in write_request_desc b fs).
Proof.
  assert (B1: Forall is_byte ex_odd) by bytes_tac. assert (B2: Forall is_byte ex_packed) by bytes_tac.
  split; [exact B1|]. split; [reflexivity|]. split; [apply (C65_write_request ex_odd ex_meant B1); vm_compute; reflexivity|].
  split; [exact B2|]. split; [reflexivity|]. split; [apply (C65_read_request ex_packed ex_packed_meant B2); vm_compute; reflexivity|].
  assert (N: forall b, Forall is_byte b -> Z.of_nat (length b) < 2 ^ 64 -> snd (merge_from write_request_read b write_request_new) = false -> ~ exists fs, body_in write_request_desc b fs).
  { intros b Hb Hl H (fs & F). assert (Q: merge_from write_request_read b write_request_new = (write_request_of fs, true)) by (apply C65_write_request; eauto).
    rewrite Q in H. discriminate. }
  intros b [<-|[<-|[<-|[]]]]; (apply N; [bytes_tac|reflexivity|vm_compute; reflexivity]).
Qed.
Example C65_stops_case :
  Forall is_byte ex_stopped /\ Z.of_nat (length ex_stopped) < 2 ^ 64 /\
  (exists fs, stops_in write_request_desc ex_stopped fs /\ ex_stopped_taken = write_request_of fs) /\
  (forall b, In b [[8]; [8; 1; 18]; [10; 7; 8]; [18; 2; 1; 128]] -> exists fs, stops_in read_request_desc b fs).
Proof.
  assert (B: Forall is_byte ex_stopped) by bytes_tac.
  split; [exact B|]. split; [reflexivity|]. split; [apply (C65_stops_write_request ex_stopped ex_stopped_taken B); vm_compute; reflexivity|].
  assert (N: forall b, Forall is_byte b -> Z.of_nat (length b) < 2 ^ 64 -> snd (merge_from read_request_read b read_request_new) = false -> exists fs, stops_in read_request_desc b fs).
  { intros b Hb Hl H. destruct (merge_from read_request_read b read_request_new) as [m ok] eqn:E. cbn [snd] in H. subst ok. apply C65_stops_read_request in E as (fs & E & _); eauto. }
  intros b [<-|[<-|[<-|[<-|[]]]]]; (apply N; [bytes_tac|reflexivity|vm_compute; reflexivity]).
Qed.
