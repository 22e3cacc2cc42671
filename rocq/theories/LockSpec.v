(* Specification vocabulary for the locks: who waits for which, and what a lock may be expected to
   do about it. *)
From Verif Require Import Rust Prog Chunk Db.

(* the locks: of the current chunk, of the list of older chunks, and of each chunk *)
Inductive lock := LCur | LSec | LChunk (i : nat).
(* does this command ask for a lock? *)
Definition asks_for {X} (c : dcmd X) : option lock :=
  match c with
  | DC i CWriteLock => Some (LChunk i)
  | DC i CReadPass => Some (LChunk i)
  | DCurRead => Some LCur
  | DCurWrite => Some LCur
  | DSecRead => Some LSec
  | DSecWrite => Some LSec
  | _ => None
  end.
(* the lock that a thread waits for (it may get it at once) *)
Definition waits_for {A} (p : prog dcmd A) : option lock :=
  match p with
  | Ret _ => None
  | Do c _ => asks_for c
  end.
(* nobody holds it *)
Definition rw_free (l : rw) : Prop := rw_readers l = O /\ rw_writer l = false.
Definition is_free (w : dworld) (l : lock) : Prop :=
  match l with
  | LCur => rw_free (d_curl w)
  | LSec => rw_free (d_secl w)
  | LChunk i => exists d, nth_error (d_heap w) i = Some d /\ w_locked (dc_world d) = false
  end.

(* who is let through: given what was scheduled so far, the threads and the state, may thread i take
   the lock it waits for?  (It must also be able to: a writer excludes everyone, readers a writer.) *)
Definition policy (A : Type) := list nat -> list (prog dcmd A) -> dworld -> nat -> bool.
(* the one thing expected of it: of those waiting for a lock that nobody holds, it lets one through *)
Definition lets_someone {A} (g : policy A) : Prop :=
  forall past ts w l i p, is_free w l -> nth_error ts i = Some p -> waits_for p = Some l ->
    exists j q, nth_error ts j = Some q /\ waits_for q = Some l /\ g past ts w j = true.

(* thread i makes a step, if it is there, let through and able to *)
Definition move {A} (g : policy A) (past : list nat) (ts : list (prog dcmd A)) (w : dworld) (i : nat)
  : option (list (prog dcmd A) * dworld) :=
  match nth_error ts i with
  | None => None
  | Some p =>
      if match waits_for p with Some _ => g past ts w i | None => true end then
        match step dhandler p w with
        | None => None
        | Some (p', w') => Some (upd ts i p', w')
        end
      else None
  end.
(* as interleave *)
Fixpoint obeying {A} (g : policy A) (past sched : list nat) (ts : list (prog dcmd A)) (w : dworld)
  : list (prog dcmd A) * dworld :=
  match sched with
  | [] => (ts, w)
  | i :: sched' =>
      match move g past ts w i with
      | None => obeying g (past ++ [i]) sched' ts w
      | Some (ts', w') => obeying g (past ++ [i]) sched' ts' w'
      end
  end.

(* readers wait while a writer waits (to rule out starving writers) *)
Definition asks_to_write {A} (p : prog dcmd A) : option lock :=
  match p with
  | Do (DC i CWriteLock) _ => Some (LChunk i)
  | Do DCurWrite _ => Some LCur
  | Do DSecWrite _ => Some LSec
  | _ => None
  end.
Definition lock_eqb (a b : lock) : bool :=
  match a, b with
  | LCur, LCur => true
  | LSec, LSec => true
  | LChunk i, LChunk j => (i =? j)%nat
  | _, _ => false
  end.
Definition same_lock (a b : option lock) : bool :=
  match a, b with Some x, Some y => lock_eqb x y | _, _ => false end.
Definition writers_first {A} : policy A := fun _ ts _ i =>
  match nth_error ts i with
  | None => false
  | Some p => match asks_to_write p with
              | Some _ => true
              | None => negb (existsb (fun q => same_lock (asks_to_write q) (waits_for p)) ts)
              end
  end.
(* the order of the threads decides *)
Definition lowest_first {A} : policy A := fun _ ts _ i =>
  match nth_error ts i with
  | None => false
  | Some p => negb (existsb (fun q => same_lock (waits_for q) (waits_for p)) (firstn i ts))
  end.
