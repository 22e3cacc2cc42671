(* Specification vocabulary for concurrent use of one chunk. *)
From Verif Require Import Rust Prog Gorilla Labels Chunk ChunkSpec.

(* a call made by a client thread *)
Inductive lop := OpInsert (ls : list label) (p : tp) | OpClose.
Definition lop_prog (ch : chunk) (o : lop) : prog ccmd (res unit) :=
  match o with OpInsert ls p => chunk_insert ch ls p | OpClose => chunk_close end.

(* the calls named by [order], one after the other, with their results; None: one of them never
   returns or does not exist *)
Fixpoint serial (ch : chunk) (ops : list lop) (order : list nat) (w : cworld)
  : option (list (nat * res unit) * cworld) :=
  match order with
  | [] => Some ([], w)
  | i :: order' =>
      match nth_error ops i with
      | None => None
      | Some o =>
          match crun ch (lop_prog ch o) w with
          | None => None
          | Some (r, w1) =>
              match serial ch ops order' w1 with
              | None => None
              | Some (rs, w2) => Some ((i, r) :: rs, w2)
              end
          end
      end
  end.

(* does this program ask for the write lock next? *)
Definition wants_lock {A} (p : prog ccmd A) : bool :=
  match p with Do CWriteLock _ => true | _ => false end.

(* the threads that take the write lock along a schedule, in the order they take it *)
Fixpoint lock_order {A} (h : handler ccmd cworld) (sched : list nat) (ts : list (prog ccmd A)) (w : cworld)
  : list nat :=
  match sched with
  | [] => []
  | i :: sched' =>
      match nth_error ts i with
      | None => lock_order h sched' ts w
      | Some p =>
          match step h p w with
          | None => lock_order h sched' ts w
          | Some (p', w') =>
              (if wants_lock p then [i] else []) ++ lock_order h sched' (upd ts i p') w'
          end
      end
  end.

(* a thread drawing n ids, after those in [got] *)
Fixpoint draws (n : nat) (got : list Z) : prog ccmd (list Z) :=
  match n with
  | O => Ret got
  | S n' => let! id := call CNextId in draws n' (got ++ [id])
  end.

(* n consecutive numbers *)
Fixpoint upfrom (z : Z) (n : nat) : list Z :=
  match n with O => [] | S n' => z :: upfrom (z + 1) n' end.

(* a client thread making one insert or one query *)
Inductive answer := Inserted (r : res unit) | Queried (r : res (list series)).

(* the sum *)
Fixpoint total (l : list nat) : nat := match l with [] => 0%nat | n :: l' => (n + total l')%nat end.
