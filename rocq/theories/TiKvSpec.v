(* Specification vocabulary for chunks over a shared TiKV. *)
From Verif Require Import Rust Prog Gorilla Storage Labels IndexSpec Indexer Chunk ChunkSpec TiKvInit TiKvShared.

(* running alone on the shared store *)
Definition srun {A} (ch : chunk) (p : prog ccmd A) (w : cworld) : option (A * cworld) := run (shandler ch) p w.
(* inserting a history into a chunk whose store holds [s] already *)
Fixpoint safter_from (ch : chunk) (h : list ireq) (w : cworld) : option cworld :=
  match h with
  | [] => Some w
  | r :: h' => match srun ch (chunk_insert ch (fst r) (snd r)) w with
               | Some (_, w') => safter_from ch h' w'
               | None => None
               end
  end.
Definition safter (ch : chunk) (h : list ireq) (s : kv) : option cworld := safter_from ch h (new_world s []).

(* a store without the chunk id, and without longer keys starting with the uuid *)
Definition unused (s : kv) (cid u : bytes) : Prop :=
  length cid = 16%nat /\ length u = 16%nat /\ kv_get s cid = None /\ forall r, r <> [] -> kv_get s (u ++ r) = None.
(* a store without points: no key of eight bytes *)
Definition no_points (s : kv) : Prop := forall k, length k = 8%nat -> kv_get s k = None.

(** ** a chunk whose stores fail *)
(* the same chunk state; the next store operations do as told *)
Definition failing (w : cworld) (fs : list fault) : cworld := set_st w (w_st w) fs.
(* the label with the same value whose name has the letter R in front *)
Definition R_label (l : label) : label := mkLabel (82 :: l_key l) (l_val l).
