(* Specification vocabulary for the wire messages: which messages there are, and what comes back
   after sending one. *)
From Verif Require Import Rust Storage StorageSpec Gorilla GorillaSpec Proto.

Definition i64 (z : Z) : Prop := - 2 ^ 63 <= z < 2 ^ 63.
(* a Rust String: UTF-8 *)
Definition text (s : bytes) : Prop := Forall is_byte s /\ utf8 s = true.

(* unknown fields with numbers the message does not know *)
Definition uval_ok (v : uval) : Prop :=
  match v with
  | UVarint z | UFixed64 z => 0 <= z < 2 ^ 64
  | UFixed32 z => 0 <= z < 2 ^ 32
  | UBytes b => Forall is_byte b
  end.
Definition unk_ok (known : Z) (u : unknowns) : Prop :=
  Forall (fun x => known < fst x < 2 ^ 29 /\ uval_ok (snd x)) u.

(* the messages Rust can hold: numbers in range, strings in UTF-8 *)
Definition sample_ok (m : sample) : Prop := 0 <= sm_value m < 2 ^ 64 /\ i64 (sm_ts m) /\ unk_ok 2 (sm_unk m).
Definition plabel_ok (m : plabel) : Prop := text (pl_name m) /\ text (pl_value m) /\ unk_ok 2 (pl_unk m).
Definition pseries_ok (m : pseries) : Prop :=
  Forall plabel_ok (ps_labels m) /\ Forall sample_ok (ps_samples m) /\ unk_ok 2 (ps_unk m).
Definition matcher_ok (m : matcher) : Prop := text (mt_name m) /\ text (mt_value m) /\ unk_ok 3 (mt_unk m).
Definition hints_ok (m : hints) : Prop :=
  i64 (hi_step m) /\ text (hi_func m) /\ i64 (hi_start m) /\ i64 (hi_end m) /\ unk_ok 4 (hi_unk m).
Definition pquery_ok (m : pquery) : Prop :=
  i64 (pq_start m) /\ i64 (pq_end m) /\ Forall matcher_ok (pq_matchers m) /\
  match pq_hints m with Some h => hints_ok h | None => True end /\ unk_ok 4 (pq_unk m).
Definition write_request_ok (m : write_request) : Prop := Forall pseries_ok (wq_series m) /\ unk_ok 1 (wq_unk m).
Definition read_request_ok (m : read_request) : Prop := Forall pquery_ok (rq_queries m) /\ unk_ok 2 (rq_unk m).
Definition query_result_ok (m : query_result) : Prop := Forall pseries_ok (qr_series m) /\ unk_ok 1 (qr_unk m).
Definition read_response_ok (m : read_response) : Prop := Forall query_result_ok (rp_results m) /\ unk_ok 1 (rp_unk m).

(* what is received: everything, but -0.0 has become +0.0 *)
Definition pos_zero (bits : Z) : Z := if bits =? 2 ^ 63 then 0 else bits.
Definition sample_back (m : sample) : sample := mkSample (pos_zero (sm_value m)) (sm_ts m) (sm_unk m).
Definition pseries_back (m : pseries) : pseries := mkPSeries (ps_labels m) (map sample_back (ps_samples m)) (ps_unk m).
Definition write_request_back (m : write_request) : write_request := mkWriteReq (map pseries_back (wq_series m)) (wq_unk m).
Definition query_result_back (m : query_result) : query_result := mkQResult (map pseries_back (qr_series m)) (qr_unk m).
Definition read_response_back (m : read_response) : read_response := mkReadResp (map query_result_back (rp_results m)) (rp_unk m).

(* ------------------------------------------------------------------ *)
(** * Bodies cut short *)

(* p is the beginning of b, and something is missing *)
Definition cut (p b : bytes) : Prop := exists r, r <> [] /\ b = p ++ r.
(* messages without unknown fields *)
Definition sample_plain (m : sample) : Prop := sm_unk m = [].
Definition pseries_plain (m : pseries) : Prop :=
  Forall (fun l => pl_unk l = []) (ps_labels m) /\ Forall sample_plain (ps_samples m) /\ ps_unk m = [].

(* y is what is left of the series x: either no sample, or all labels, some of the first samples,
   and perhaps a sample at time 0 *)
Definition remnant (y x : pseries) : Prop :=
  ps_samples y = [] \/
  (ps_labels y = ps_labels x /\
   exists l1 l2, ps_samples x = l1 ++ l2 /\
     (ps_samples y = l1 \/ exists s, l2 <> [] /\ ps_samples y = l1 ++ [s] /\ sm_ts s = 0)).
