(* Specification vocabulary: a chunk started again after an insert was stopped part way. *)
From Verif Require Import Rust Prog Gorilla Storage StorageSpec Labels IndexSpec Chunk ChunkSpec.

(* a chunk started again on what its two stores hold after the insert [r], begun in state [w], was
   stopped after [n] of its operations *)
Definition restarted (ch : chunk) (n : nat) (r : ireq) (w : cworld) : cworld :=
  let w' := snd (crash_at (chandler ch) n (chunk_insert ch (fst r) (snd r)) w) in new_world (w_st w') (w_ix w').

(* the insert gives the chunk a label set it does not have *)
Definition starts_series (ch : chunk) (A : content) (r : ireq) : Prop :=
  in_window ch (tp_ts (snd r)) /\ forall e, In e A -> ~ same_set (fst e) (fst r).
(* the searched labels include one of the label set *)
Definition shares (q ls : list label) : Prop := exists l, In l q /\ In l ls.

(* the answer when only those of the series matching in A are read that [keep] keeps *)
Definition part_answer (ch : chunk) (A : content) (q : list label) (s e : Z) (keep : Z * (list label * list tp) -> bool) : res (list series) :=
  if (e <? c_start ch) || (c_end ch <? s) then Err (OutOfRangeErr (c_start ch) (c_end ch))
  else collect (fun pts => read_spec pts s e) (filter keep (matching A q)).
