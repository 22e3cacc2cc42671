(* Specification vocabulary: a server in front of a database of any kind, given by what its operations do to its state
   and return, and by the chunks that queries see. *)
From Verif Require Import WireSpec.
From Verif Require Import Rust Prog Gorilla GorillaSpec Storage StorageSpec Labels IndexSpec Indexer Chunk ChunkSpec Db DbSpec RangeSpec Proto ProtoSpec
  Server ServerSpec AskSpec.

Section Talk.
  Context {D : Type} (step : D -> dop -> D * res unit) (chunks : D -> list part).

  (* the batches a write request makes: one per series, up to and including the first that fails *)
  Fixpoint batches_made (d : D) (l : list pseries) : list dop :=
    match l with
    | [] => []
    | s :: l' =>
        batch_of s :: match step d (batch_of s) with
                      | (d', Ok _) => batches_made d' l'
                      | _ => []
                      end
    end.
  Fixpoint all_made (d : D) (l : list pseries) : bool :=
    match l with
    | [] => true
    | s :: l' => match step d (batch_of s) with
                 | (d', Ok _) => all_made d' l'
                 | _ => false
                 end
    end.
  Definition steps (d : D) (ops : list dop) : D := fold_left (fun d o => fst (step d o)) ops d.
  (* the operations a request makes, and those of a sequence of requests *)
  Definition made (d : D) (v : event) : list dop :=
    match v with Asked (CWrite m) => batches_made d (wq_series m) | _ => [] end.
  Fixpoint all_ops (d : D) (l : list event) : list dop :=
    match l with
    | [] => []
    | v :: l' => made d v ++ all_ops (steps d (made d v)) l'
    end.
  (* queries that have an answer, as in AskSpec.v *)
  Fixpoint talk_sane (ch : nat -> choices) (z : snappy) (d : D) (l : list event) : Prop :=
    match l with
    | [] => True
    | v :: l' => event_sane ch z (chunks d) v /\ talk_sane ch z (steps d (made d v)) l'
    end.

  (* the request ends the serving *)
  Definition ends (d : D) (v : event) : Prop :=
    match v with
    | Asked (CRead m) => exists q p, In q (rq_queries m) /\ In p (chunks d) /\ crashes p (asked_labels q) (asked_from q) (asked_to q)
    | Asked _ | Elsewhere => False
    | Unreadable => True
    end.
  (* the response to a request *)
  Definition replied (z : snappy) (d : D) (v : event) (rs : response) : Prop :=
    match v with
    | Asked (CWrite m) => rs = empty_response (if all_made d (wq_series m) then 200 else 500)
    | Asked (CRead m) =>
        (nothing_asked m /\ rs = empty_response 500) \/
        (~ nothing_asked m /\ rs_status rs = 200 /\
         exists l, compress z (read_response_write (mkReadResp l [])) = Some (rs_body rs) /\ results_for (chunks d) (rq_queries m) l)
    | Asked CGarbled => rs = empty_response 500
    | _ => rs = empty_response 404
    end.
  (* the requests before the first that ends the serving are answered, with rss; it is not and none after it is.  ops are
     the operations made. *)
  Fixpoint talk (z : snappy) (d : D) (l : list event) (rss : list response) (r : res unit) (ops : list dop) : Prop :=
    match l with
    | [] => rss = [] /\ r = Ok tt /\ ops = []
    | v :: l' =>
        (ends d v /\ rss = [] /\ r = Panic /\ ops = []) \/
        (~ ends d v /\ exists rs rss' ops', rss = rs :: rss' /\ ops = made d v ++ ops' /\ replied z d v rs /\
           talk z (steps d (made d v)) l' rss' r ops')
    end.
End Talk.

(* a database whose state is its history, as in DbSpec.v *)
Definition history_step (cf : config) (start : Z) (ops : list dop) (o : dop) : list dop * res unit :=
  (ops ++ [o], outcome (the_chunk cf (last_start start ops)) o).
