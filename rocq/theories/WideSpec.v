(* Specification vocabulary: a database whose chunk windows may reach beyond the last instant a clock can show, 2^64 - 1 ms.
   Without overflow checks the end of such a window comes round to the beginning of time. *)
From Verif Require Import Rust Prog Gorilla GorillaSpec Storage StorageSpec Labels IndexSpec Indexer Chunk ChunkSpec Utils TiKvInit Db DbSpec.

(* where the window starting at [start] ends *)
Definition wide_end (cf : config) (start : Z) : Z :=
  if start + cf_size cf <? 2 ^ 64 then start + cf_size cf else start + cf_size cf - 2 ^ 64.
Definition wide_chunk (cf : config) (start : Z) : chunk :=
  mkChunk (match cf_st cf with Sled => SledStorage | TiKvDry => TiKvStorage [] end) SledIndexer start (wide_end cf start).

(* the windows with what was written while each was current, as DbSpec.parts *)
Fixpoint wide_from (cf : config) (start : Z) (h : list ireq) (ops : list dop) : list part :=
  match ops with
  | [] => [(wide_chunk cf start, content_of (wide_chunk cf start) h)]
  | OpPoint ls p :: ops' => wide_from cf start (h ++ [(ls, p)]) ops'
  | OpBatch ls pts :: ops' => wide_from cf start (h ++ map (pair ls) pts) ops'
  | OpSwap start' :: ops' =>
      (wide_chunk cf start, content_of (wide_chunk cf start) h) :: wide_from cf start' [] ops'
  end.
Definition wide_parts (cf : config) (start : Z) (ops : list dop) : list part := wide_from cf start [] ops.

(* what the operations return, as DbSpec.outcome; a window that ends before it starts lets no point of a batch through, so
   no point of it can fail *)
Definition wide_outcome (ch : chunk) (o : dop) : res unit :=
  match o with
  | OpPoint _ p => if in_windowb ch (tp_ts p) then Ok tt else Err (OutOfRangeErr (c_start ch) (c_end ch))
  | OpBatch _ pts => if (c_start ch <=? c_end ch) && existsb (on_edge ch) pts then Err InternalErr else Ok tt
  | OpSwap _ => Ok tt
  end.
Fixpoint wide_outcomes (cf : config) (start : Z) (ops : list dop) : list (res unit) :=
  match ops with
  | [] => []
  | o :: ops' => wide_outcome (wide_chunk cf start) o ::
                 wide_outcomes cf (match o with OpSwap start' => start' | _ => start end) ops'
  end.

(* each swap starts later than the previous one; nothing is said about where the windows end *)
Fixpoint later_starts (start : Z) (ops : list dop) : Prop :=
  match ops with
  | [] => True
  | OpSwap start' :: ops' => start < start' < 2 ^ 64 /\ later_starts start' ops'
  | _ :: ops' => later_starts start ops'
  end.
Definition wide_ok (cf : config) (start : Z) (ops : list dop) : Prop :=
  cf_base cf <> [] /\ 0 <= start < 2 ^ 64 /\ 0 <= cf_size cf < 2 ^ 64 /\ later_starts start ops /\
  Forall ireq_ok (written ops) /\ Z.of_nat (length (written ops)) < 2 ^ 64 - 1.
