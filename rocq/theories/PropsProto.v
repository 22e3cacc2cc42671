(* Properties of the wire messages: C52. *)
From Coq Require Import String.
From Verif Require Import Rust Storage StorageSpec Gorilla GorillaSpec Proto ProtoSpec ProtoProofs ProtoRound ProtoCut.
Local Notation length := List.length.

(* a write request with a label in UTF-8, values -0.0, 1.5 and NaN, a negative time and unknown fields *)
Definition ex_series : pseries :=
  mkPSeries [mkPLabel (s2b "job") [195; 169] [(7, UVarint 300); (7, UBytes [1; 2])]; mkPLabel (s2b "host") (s2b "x") []]
            [mkSample (2 ^ 63) (-5) []; mkSample 0x3FF8000000000000 1010 [(3, UFixed32 9)]; mkSample 0x7FF8000000000001 0 []] [(9, UFixed64 1)].
Definition ex_write : write_request := mkWriteReq [ex_series; mkPSeries [] [] []; ex_series] [(536870911, UVarint 0)].
Definition ex_read : read_request :=
  mkReadReq [mkPQuery (-1) (2 ^ 63 - 1) [mkMatcher NRE (s2b "job") (s2b "a") []; mkMatcher EQ [] [] [(4, UVarint 1)]]
               (Some (mkHints 0 (s2b "rate") (-7) 9 [])) [(5, UBytes [])];
             mkPQuery 0 0 [] None []] [SAMPLES; STREAMED_XOR_CHUNKS] [].
Definition ex_resp : read_response := mkReadResp [mkQResult [ex_series] []; mkQResult [] [(2, UVarint 3)]] [].
Ltac text_tac := split; [cbv -[is_byte Z.le Z.lt]; repeat (apply Forall_cons; [unfold is_byte; lia|]); apply Forall_nil|reflexivity].
Ltac ok_tac :=
  repeat match goal with
  | |- _ /\ _ => split
  | |- Forall _ [] => apply Forall_nil
  | |- Forall _ (_ :: _) => apply Forall_cons
  | |- text _ => text_tac
  | |- i64 _ => unfold i64; cbn; lia
  | |- unk_ok _ _ => unfold unk_ok
  | |- pseries_ok _ => unfold pseries_ok; cbn [ps_labels ps_samples ps_unk ex_series]
  | |- plabel_ok _ => unfold plabel_ok; cbn [pl_name pl_value pl_unk]
  | |- sample_ok _ => unfold sample_ok; cbn [sm_value sm_ts sm_unk]
  | |- matcher_ok _ => unfold matcher_ok; cbn [mt_name mt_value mt_unk]
  | |- pquery_ok _ => unfold pquery_ok; cbn [pq_start pq_end pq_matchers pq_hints pq_unk]
  | |- hints_ok _ => unfold hints_ok; cbn [hi_step hi_func hi_start hi_end hi_unk]
  | |- query_result_ok _ => unfold query_result_ok; cbn [qr_series qr_unk]
  | |- uval_ok _ => cbn [uval_ok snd]
  | |- is_byte _ => unfold is_byte; lia
  | |- True => exact I
  | |- _ => cbn [fst snd uval_ok]; lia
  end.
Lemma ex_series_ok : pseries_ok ex_series.
Proof. ok_tac. Qed.
Lemma ex_write_ok : write_request_ok ex_write.
Proof. split; cbn [ex_write wq_series wq_unk]; [|ok_tac]. repeat (apply Forall_cons; [first [exact ex_series_ok|ok_tac]|]). apply Forall_nil. Qed.
Lemma ex_read_ok : read_request_ok ex_read.
Proof. split; cbn [ex_read rq_queries rq_unk]; ok_tac. Qed.
Lemma ex_resp_ok : read_response_ok ex_resp.
Proof. split; cbn [ex_resp rp_results rp_unk]; ok_tac. Qed.

(** C52 *)
(* [_back]: the same message but for -0.0, see ProtoSpec *)
Theorem C52_write_request : forall m, write_request_ok m -> write_request_size m < 2 ^ 32 ->
  merge_from write_request_read (write_request_write m) write_request_new = (write_request_back m, true).
Proof. exact write_request_round. Qed.
Print Assumptions C52_write_request.
Theorem C52_read_request : forall m, read_request_ok m -> read_request_size m < 2 ^ 32 ->
  merge_from read_request_read (read_request_write m) read_request_new = (m, true).
Proof. exact read_request_round. Qed.
Print Assumptions C52_read_request.
Theorem C52_read_response : forall m, read_response_ok m -> read_response_size m < 2 ^ 32 ->
  merge_from read_response_read (read_response_write m) read_response_new = (read_response_back m, true).
Proof. exact read_response_round. Qed.
Print Assumptions C52_read_response.
Example C52_case : write_request_ok ex_write /\ write_request_size ex_write < 2 ^ 32 /\
  read_request_ok ex_read /\ read_request_size ex_read < 2 ^ 32 /\
  read_response_ok ex_resp /\ read_response_size ex_resp < 2 ^ 32 /\
  read_request_write (mkReadReq [mkPQuery 1 300 [mkMatcher NEQ (s2b "a") (s2b "b") []] None []] [] []) =
    [10; 15; 8; 1; 16; 172; 2; 26; 8; 8; 1; 18; 1; 97; 26; 1; 98].
Proof.
  split; [exact ex_write_ok|]. split; [reflexivity|]. split; [exact ex_read_ok|]. split; [reflexivity|].
  split; [exact ex_resp_ok|]. split; reflexivity.
Qed.

(* without -0.0 nothing changes *)
Theorem C52_write_request_same : forall m, write_request_ok m -> write_request_size m < 2 ^ 32 ->
  (forall s x, In s (wq_series m) -> In x (ps_samples s) -> sm_value x <> 2 ^ 63) ->
  merge_from write_request_read (write_request_write m) write_request_new = (m, true).
Proof.
  intros m Hok Hsz H. rewrite (write_request_round m Hok Hsz). f_equal. destruct m as [l u]. unfold write_request_back. cbn [wq_series wq_unk] in *. f_equal.
  rewrite <- (map_id l) at 2. apply map_ext_in. intros [ls ss v] Hs. unfold pseries_back. cbn [ps_labels ps_samples ps_unk]. f_equal.
  rewrite <- (map_id ss) at 2. apply map_ext_in. intros [val t w] Hx. unfold sample_back, pos_zero. cbn [sm_value sm_ts sm_unk].
  pose proof (H _ _ Hs Hx) as N. cbn [sm_value] in N. apply Z.eqb_neq in N. rewrite N. reflexivity.
Qed.
Print Assumptions C52_write_request_same.
(* -0.0 does not survive *)
Theorem C52_negative_zero_refuted : exists m, write_request_ok m /\ write_request_size m < 2 ^ 32 /\
  merge_from write_request_read (write_request_write m) write_request_new <> (m, true).
Proof.
  exists (mkWriteReq [mkPSeries [] [mkSample (2 ^ 63) 1 []] []] []). split; [split; cbn [wq_series wq_unk]; ok_tac|].
  split; [reflexivity|]. vm_compute. discriminate.
Qed.
Print Assumptions C52_negative_zero_refuted.

(* the computed sizes are the lengths *)
Theorem C52_sizes : forall a b c, write_request_ok a -> read_request_ok b -> read_response_ok c ->
  Z.of_nat (length (write_request_write a)) = write_request_size a /\
  Z.of_nat (length (read_request_write b)) = read_request_size b /\
  Z.of_nat (length (read_response_write c)) = read_response_size c.
Proof. intros a b c Ha Hb Hc. split; [now apply write_request_length|]. split; [now apply read_request_length|now apply read_response_length]. Qed.
Print Assumptions C52_sizes.
Example C52_sizes_case : write_request_size ex_write = 174 /\ read_request_size ex_read = 68 /\ read_response_size ex_resp = 89.
Proof. vm_compute. repeat split. Qed.

(* two bodies joined are one request with the series of both *)
Theorem C52_joined : forall a b, write_request_ok a -> write_request_ok b ->
  write_request_size a < 2 ^ 32 -> write_request_size b < 2 ^ 32 ->
  merge_from write_request_read (write_request_write a ++ write_request_write b) write_request_new =
    (mkWriteReq (wq_series (write_request_back a) ++ wq_series (write_request_back b)) (wq_unk a ++ wq_unk b), true).
Proof.
  intros a b Ha Hb Sa Sb. apply merge_eats.
  - rewrite app_length, Nat2Z.inj_add, !write_request_length by assumption. lia.
  - eapply eats_app; [exact (write_request_eats a [] [] Ha Sa)|].
    exact (write_request_eats b _ _ Hb Sb).
Qed.
Print Assumptions C52_joined.

(* a body cut short reads as the series before the cut, and perhaps one more series: without
   samples, or with all labels and the samples before the cut and perhaps one at time 0 *)
Theorem C52_cut_short : forall m p, write_request_ok m -> Forall pseries_plain (wq_series m) -> wq_unk m = [] ->
  write_request_size m < 2 ^ 32 -> cut p (write_request_write m) ->
  exists l1 x l2, wq_series m = l1 ++ x :: l2 /\
    (wq_series (fst (merge_from write_request_read p write_request_new)) = map pseries_back l1 \/
     exists y, wq_series (fst (merge_from write_request_read p write_request_new)) = map pseries_back l1 ++ [y] /\
       remnant y (pseries_back x)).
Proof. exact write_request_cut. Qed.
Print Assumptions C52_cut_short.
Definition ex_plain : write_request :=
  mkWriteReq [mkPSeries [mkPLabel (s2b "job") (s2b "a") []] [mkSample 7 1010 []; mkSample 8 1020 []] [];
              mkPSeries [mkPLabel (s2b "job") (s2b "b") []] [mkSample 9 1030 []] []] [].
Lemma ex_plain_ok : write_request_ok ex_plain /\ Forall pseries_plain (wq_series ex_plain).
Proof.
  split; [split; cbn [ex_plain wq_series wq_unk]; ok_tac|].
  cbn [ex_plain wq_series]. unfold pseries_plain, sample_plain.
  repeat apply Forall_cons; try apply Forall_nil; cbn [ps_labels ps_samples ps_unk]; (split; [|split]);
    try (repeat apply Forall_cons; try apply Forall_nil); reflexivity.
Qed.
Example C52_cut_case : write_request_ok ex_plain /\ Forall pseries_plain (wq_series ex_plain) /\ wq_unk ex_plain = [] /\
  cut (firstn 38 (write_request_write ex_plain)) (write_request_write ex_plain) /\
  map (fun n => wq_series (fst (merge_from write_request_read (firstn n (write_request_write ex_plain)) write_request_new))) [26; 37; 45]%nat =
    [ [mkPSeries [mkPLabel (s2b "job") (s2b "a") []] [mkSample 7 1010 []] []];
      [mkPSeries [mkPLabel (s2b "job") (s2b "a") []] [mkSample 7 1010 []; mkSample 8 0 []] []];
      [mkPSeries [mkPLabel (s2b "job") (s2b "a") []] [mkSample 7 1010 []; mkSample 8 1020 []] [];
       mkPSeries [mkPLabel [] [] []] [] []] ].
Proof.
  split; [apply ex_plain_ok|]. split; [apply ex_plain_ok|]. split; [reflexivity|].
  split; [exists (skipn 38 (write_request_write ex_plain)); split; [vm_compute; discriminate|symmetry; apply firstn_skipn]|].
  vm_compute. reflexivity.
Qed.
