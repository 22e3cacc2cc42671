(* Specification vocabulary for power failures: the sled stores of a chunk lose the last of the
   sets made, as many as were not flushed yet at most. *)
From Verif Require Import Rust Prog Gorilla GorillaSpec Storage StorageSpec Labels IndexSpec Chunk ChunkSpec Flush.

(* the chunk after a history of inserts, and how many index sets are not flushed then *)
Fixpoint after_f_from (ch : chunk) (h : list ireq) (wn : cworld * nat) : option (cworld * nat) :=
  match h with
  | [] => Some wn
  | r :: h' => match run (lhandler ch) (chunk_insert_f ch (fst r) (snd r)) wn with
               | Some (_, wn') => after_f_from ch h' wn'
               | None => None
               end
  end.
Definition after_f (ch : chunk) (h : list ireq) : option (cworld * nat) :=
  after_f_from ch h (new_world [] [], O).

(* what is found on disk when the last [a] sets of the point store and the last [b] sets of the
   index store are lost (a store is the list of the sets made, latest first) *)
Definition lost (w : cworld) (a b : nat) : cworld := new_world (skipn a (w_st w)) (skipn b (w_ix w)).

(* the requests inside the window: those that wrote a point *)
Definition taken (ch : chunk) (h : list ireq) : list ireq :=
  filter (fun r => in_windowb ch (tp_ts (snd r))) h.
(* all but the last [a] *)
Definition but_last {A} (a : nat) (l : list A) : list A := firstn (List.length l - a) l.

(* the points a content has for a label set *)
Definition points_in (C : content) (ls : list label) : list tp :=
  match find (fun e => same_setb (fst e) ls) C with Some e => snd e | None => [] end.
(* the series of A, with the points that C has for them *)
Definition cut (C A : content) : content := map (fun e => (fst e, points_in C (fst e))) A.
(* every series ever inserted, with the points of all but the last [a] inserts *)
Definition after_loss (ch : chunk) (h : list ireq) (a : nat) : content :=
  cut (content_of ch (but_last a (taken ch h))) (content_of ch h).
