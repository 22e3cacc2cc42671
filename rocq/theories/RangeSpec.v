(* Specification vocabulary: when a query from an instant back to an earlier one brings the database down. *)
From Coq Require Import Permutation.
From Verif Require Import Rust Prog Gorilla GorillaSpec Storage StorageSpec Labels IndexSpec Indexer Chunk ChunkSpec Db DbSpec.

(* a point strictly after e and before s *)
Definition gap (s e : Z) (pts : list tp) : Prop := exists p, In p pts /\ e < tp_ts p < s.
(* the chunk brings a query from s back to e down: both instants lie in its window, and among its matching series, in
   order of first insertion, there is one with points up to e, points from s on and points between, all earlier ones
   having points up to e and points from s on, but none between *)
Definition crashes (c : part) (q : list label) (s e : Z) : Prop :=
  e < s /\ (c_start (fst c) <= e /\ s <= c_end (fst c)) /\
  exists before ls pts after, snd c = before ++ (ls, pts) :: after /\
    (forall ls' pts', In (ls', pts') before -> matches (snd c) q ls' = true -> touches s e pts' /\ ~ gap s e pts') /\
    matches (snd c) q ls = true /\ touches s e pts /\ gap s e pts.
(* the same answer up to the order of the series, or both brought down *)
Definition alike (r r' : res (list (list label * list tp))) : Prop :=
  match r, r' with
  | Ok a, Ok a' => Permutation a a'
  | Panic, Panic => True
  | _, _ => False
  end.
(* what becomes of a query over any two instants, the chunks being l: it is brought down, or answered *)
Definition comes_to (l : list part) (q : list label) (s e : Z) (r : res (list (list label * list tp))) : Prop :=
  ((exists c, In c l /\ crashes c q s e) /\ r = Panic) \/
  (~ (exists c, In c l /\ crashes c q s e) /\ exists a, r = Ok a /\ db_answer l q s e a).
