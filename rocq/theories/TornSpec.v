(* Specification vocabulary for a write cut short by the end of the process. *)
From Coq Require Import Permutation.
From Verif Require Import Rust Prog Gorilla GorillaSpec Storage StorageSpec Labels IndexSpec Indexer Chunk ChunkSpec Utils DirSpec TiKvInit Db DbSpec.

(* what may have been done of a write: nothing or all of a point, the first points of a batch *)
Inductive done_of : dop -> list dop -> Prop :=
| Done_none op : done_of op []
| Done_point ls p : done_of (OpPoint ls p) [OpPoint ls p]
| Done_batch ls pts k : done_of (OpBatch ls pts) [OpBatch ls (firstn k pts)].
(* a write for the label set ls *)
Definition writes (ls : list label) (op : dop) : Prop := (exists p, op = OpPoint ls p) \/ (exists pts, op = OpBatch ls pts).
(* the window current after ops has a series with this label set *)
Definition has_series (cf : config) (start : Z) (ops : list dop) (ls : list label) : Prop :=
  exists l ch A x, parts cf start ops = l ++ [(ch, A)] /\ In x A /\ Permutation (fst x) ls.
(* the points of the range [s, e] of a series of c that matches q and has the label set m *)
Definition found (c : part) (q : list label) (s e : Z) (m : list label) (pts : list tp) : Prop :=
  exists x, In x (snd c) /\ sort_labels (fst x) = m /\ matches (snd c) q (fst x) = true /\ pts = within s e (snd x).
(* r is an answer in which the newest chunk, for each label set, may be missing *)
Definition answer_short (l : list part) (q : list label) (s e : Z) (r : list (list label * list tp)) : Prop :=
  exists old c X, l = old ++ [c] /\ (forall m, X m = [] \/ found c q s e m (X m)) /\ NoDup (map fst r) /\
    forall m pts, In (m, pts) r <-> pts <> [] /\ pts = concat (map (fun c => piece c q s e m) old) ++ X m.
