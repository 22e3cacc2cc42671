(* Model of src/server.rs: answering read and write requests over HTTP; and of the conversions
   between the database's and the wire's labels, points and series. *)
From Coq Require Import String.
From Verif Require Import Rust Prog Gorilla Storage Labels Indexer Chunk Db Proto.
Local Notation length := List.length.

(* ------------------------------------------------------------------ *)
(** * Conversions *)

(* src/common/label.rs:66-75 From<&Label> for proto::Label *)
Definition wire_label (l : label) : plabel := mkPLabel (l_key l) (l_val l) [].
(* src/common/label.rs:77-84 From<&proto::Label> for Label *)
Definition label_of_wire (l : plabel) : label := mkLabel (pl_name l) (pl_value l).
(* src/common/label.rs:19-24 from_label_matcher: the type is not looked at *)
Definition from_label_matcher (m : matcher) : label := mkLabel (mt_name m) (mt_value m).
(* src/common/time_point.rs:41-50 From<&TimePoint> for Sample: the timestamp [as i64] *)
Definition wire_sample (p : tp) : sample := mkSample (tp_val p) (wraps 64 (tp_ts p)) [].
(* src/common/time_point.rs:52-59 From<&Sample> for TimePoint: the timestamp [as u64] *)
Definition point_of_wire (s : sample) : tp := mkTp (wrapu 64 (sm_ts s)) (sm_value s).
(* src/common/time_series.rs:67-76 From<&(Labels, Vec<TimePoint>)> for proto::TimeSeries *)
Definition wire_series (x : list label * list tp) : pseries :=
  mkPSeries (map wire_label (fst x)) (map wire_sample (snd x)) [].
(* src/common/time_series.rs:78-86 From<&proto::TimeSeries> for TimeSeries: labels and points *)
Definition series_of_wire (s : pseries) : list label * list tp :=
  (map label_of_wire (ps_labels s), map point_of_wire (ps_samples s)).

(* ------------------------------------------------------------------ *)
(** * Reading and writing *)

(* What the n-th query of a request meets that the code does not determine: the hash map of its
   answer, and the timing of its intersection. *)
Definition choices := nat -> hasher * timing.

(* src/server.rs:139-163: one result per query; an error of the database gives an empty result *)
Fixpoint query_results (bs : bsearch) (ch : choices) (n : nat) (qs : list pquery)
  : prog dcmd (res (list query_result)) :=
  match qs with
  | [] => Ret (Ok [])
  | q :: qs' =>
      let! r := db_query (fst (ch n)) bs (snd (ch n)) (map from_label_matcher (pq_matchers q))
                         (wrapu 64 (pq_start q)) (wrapu 64 (pq_end q)) in
      match r with
      | Panic => Ret Panic
      | _ =>
          let found := match r with Ok l => l | _ => [] end in
          let? rest := query_results bs ch (S n) qs' in
          Ret (Ok (mkQResult (map wire_series found) [] :: rest))
      end
  end.
(* src/server.rs:133-169 query *)
Definition server_query (bs : bsearch) (ch : choices) (rq : read_request) : prog dcmd (res read_response) :=
  let? l := query_results bs ch 0 (rq_queries rq) in
  Ret (Ok (mkReadResp l [])).

(* src/server.rs:172-176: the series in order, up to the first error *)
Fixpoint write_series (l : list pseries) : prog dcmd (res unit) :=
  match l with
  | [] => Ret (Ok tt)
  | s :: l' =>
      let? _ := db_write_points (fst (series_of_wire s)) (snd (series_of_wire s)) in
      write_series l'
  end.
(* src/server.rs:171-179 write *)
Definition server_write (wq : write_request) : prog dcmd (res unit) := write_series (wq_series wq).

(* ------------------------------------------------------------------ *)
(** * Requests *)

(* src/server.rs:20-30: what the handling of a request uses; port and worker_num only serve to
   set up the listener and the pool *)
Record server := mkServer { sv_read_path : bytes; sv_write_path : bytes }.

(* the snap crate: None = error *)
Record snappy := mkSnappy { decompress : bytes -> option bytes; compress : bytes -> option bytes }.

(* an HTTP request; rq_content is None when reading the body fails.  The method is not looked at. *)
Record request := mkRequest { rq_url : bytes; rq_content : option bytes }.
Record response := mkResponse { rs_status : Z; rs_body : bytes }.
Definition empty_response (status : Z) : response := mkResponse status [].

(* src/server.rs:65-131 _process: the response.  Sending it may fail, which is ignored. *)
Definition process (sv : server) (z : snappy) (bs : bsearch) (ch : choices) (rq : request)
  : prog dcmd (res response) :=
  match rq_content rq with
  | None => Ret Panic
  | Some content =>
  match decompress z content with
  | None => Ret Panic
  | Some body =>
      if bytes_eqb (rq_url rq) (sv_read_path sv) then
        let '(m, ok) := merge_from read_request_read body read_request_new in
        if negb ok || (read_request_size m =? 0) then Ret (Ok (empty_response 500))
        else
          let! r := server_query bs ch m in
          Ret match r with
              | Ok rs =>
                  match compress z (read_response_write rs) with
                  | Some c => Ok (mkResponse 200 c)
                  | None => Panic
                  end
              | Err _ => Ok (empty_response 500)
              | Panic => Panic
              end
      else if bytes_eqb (rq_url rq) (sv_write_path sv) then
        let '(m, _) := merge_from write_request_read body write_request_new in
        let! r := server_write m in
        Ret match r with
            | Ok _ => Ok (empty_response 200)
            | Err _ => Ok (empty_response 500)
            | Panic => Panic
            end
      else Ret (Ok (empty_response 404))
  end
  end.

(* src/server.rs:56-60 serve: one request after the other (rayon's install waits for the end and
   passes a panic on, which ends the loop): the responses sent, and Panic at the end if the loop
   was ended *)
Fixpoint serve (sv : server) (z : snappy) (bs : bsearch) (ch : nat -> choices) (k : nat) (rqs : list request)
  : prog dcmd (list response * res unit) :=
  match rqs with
  | [] => Ret ([], Ok tt)
  | rq :: rqs' =>
      let! r := process sv z bs (ch k) rq in
      match r with
      | Ok rs => let! rest := serve sv z bs ch (S k) rqs' in Ret (rs :: fst rest, snd rest)
      | Err e => Ret ([], Err e)
      | Panic => Ret ([], Panic)
      end
  end.
