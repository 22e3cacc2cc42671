(* Specification vocabulary for power failures of a database on sled. *)
From Verif Require Import Rust Prog Gorilla GorillaSpec Storage StorageSpec Labels IndexSpec Chunk ChunkSpec LossSpec Db DbSpec ReopenSpec.

(* the chunks of a history, with what was written while each was current *)
Fixpoint hists_from (cf : config) (start : Z) (h : list ireq) (ops : list dop) : list (chunk * list ireq) :=
  match ops with
  | [] => [(the_chunk cf start, h)]
  | OpPoint ls p :: ops' => hists_from cf start (h ++ [(ls, p)]) ops'
  | OpBatch ls pts :: ops' => hists_from cf start (h ++ map (pair ls) pts) ops'
  | OpSwap start' :: ops' => (the_chunk cf start, h) :: hists_from cf start' [] ops'
  end.
Definition hists (cf : config) (start : Z) (ops : list dop) : list (chunk * list ireq) := hists_from cf start [] ops.

(* what is left of them when the point store of each chunk loses its last sets, as many as the list
   says: the points of all but the last accepted inserts *)
Fixpoint survivors (hs : list (chunk * list ireq)) (losses : list nat) : list part :=
  match hs with
  | [] => []
  | (c, h) :: hs' => (c, after_loss c h (hd O losses)) :: survivors hs' (tl losses)
  end.

(* the files after a power failure, when the point stores of the chunks lost so many sets.  The
   index stores lose nothing: see C61_index_flushed *)
Definition lose_sets (n : nat) (w : cworld) : cworld := set_st w (skipn n (w_st w)) (w_faults w).
Fixpoint lose (losses : list nat) (h : list dchunk) : list dchunk :=
  match h with
  | [] => []
  | d :: h' => mkDc (dc_chunk d) (lose_sets (hd O losses) (dc_world d)) (dc_name d) :: lose (tl losses) h'
  end.
Definition power_off (cf : config) (w : dworld) (losses : list nat) : fworld :=
  stopped cf (set_heap w (lose losses (d_heap w))).

(* processes one after the other, each but the last ended by a power failure, in which the chunks
   that the process created lose sets (the others were read from the disk, and are only read);
   the state in which the last process is *)
Fixpoint live_off (L : list (life * list nat)) (f : fworld) : option dworld :=
  match L with
  | [] => None
  | (x, losses) :: L' =>
      match db_open (lf_cf x) f with
      | Some (Ok _, w0) =>
          match db_after_from (lf_cf x) (lf_ops x) w0 with
          | Some (_, w) =>
              match L' with
              | [] => Some w
              | _ => live_off L' (power_off (lf_cf x) w (repeat O (pred (length (d_heap w0))) ++ losses))
              end
          | None => None
          end
      | _ => None
      end
  end.
(* the chunks then, as life_parts *)
Fixpoint off_parts (clock : nat -> Z) (tick n : nat) (L : list (life * list nat)) : list part :=
  match L with
  | [] => []
  | (x, losses) :: L' =>
      let hs := hists (lf_cf x) (clock (tick + n)%nat) (lf_ops x) in
      survivors hs (match L' with [] => [] | _ => losses end) ++ off_parts clock (S (tick + n)) (n + length hs) L'
  end.
