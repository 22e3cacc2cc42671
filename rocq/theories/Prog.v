(* Effectful code as programs: trees of single atomic commands.  Nothing here models a
   function of the repository; it is the meaning of sequencing, of running alone, of stopping
   after some number of commands, and of running interleaved with other threads. *)
From Verif Require Import Rust.

(* A program whose commands are drawn from C (C X = a command answering an X) *)
Inductive prog (C : Type -> Type) (A : Type) : Type :=
| Ret (a : A)
| Do (X : Type) (c : C X) (k : X -> prog C A).
Arguments Ret {C A} a.
Arguments Do {C A} {X} c k.

Fixpoint bind {C A B} (p : prog C A) (f : A -> prog C B) : prog C B :=
  match p with
  | Ret a => f a
  | Do c k => Do c (fun x => bind (k x) f)
  end.

Notation "'let!' x ':=' p 'in' q" := (bind p (fun x => q))
  (at level 200, x pattern, right associativity, only parsing).

(* the [?] operator: stop at Err (return it) and at a panic (unwind) *)
Definition qbind {C A B} (p : prog C (res A)) (f : A -> prog C (res B)) : prog C (res B) :=
  bind p (fun r => match r with Ok a => f a | Err e => Ret (Err e) | Panic => Ret Panic end).
Notation "'let?' x ':=' p 'in' q" := (qbind p (fun x => q))
  (at level 200, x pattern, right associativity, only parsing).

(* a command alone *)
Definition call {C X} (c : C X) : prog C X := Do c (fun x => Ret x).

(* the same program with its commands renamed *)
Fixpoint lift {C D A} (f : forall X, C X -> D X) (p : prog C A) : prog D A :=
  match p with
  | Ret a => Ret a
  | Do c k => Do (f _ c) (fun x => lift f (k x))
  end.

(* a sequence of programs, first error stops *)
Fixpoint forM {C A B} (f : A -> prog C (res B)) (l : list A) : prog C (res (list B)) :=
  match l with
  | [] => Ret (Ok [])
  | a :: l' => let? b := f a in let? bs := forM f l' in Ret (Ok (b :: bs))
  end.

(* [handler C W]: what a command answers in a world and the world after; None = blocked *)
Definition handler (C : Type -> Type) (W : Type) := forall X, C X -> W -> option (X * W).

(* run to the end without interference; None = blocked forever *)
Fixpoint run {C W A} (h : handler C W) (p : prog C A) (w : W) : option (A * W) :=
  match p with
  | Ret a => Some (a, w)
  | Do c k =>
      match h _ c w with
      | None => None
      | Some (x, w') => run h (k x) w'
      end
  end.

(* run at most n commands: what is left of the program, and the world then.  A process that
   stops after n commands leaves [snd (crash_at n p w)] behind. *)
Fixpoint crash_at {C W A} (h : handler C W) (n : nat) (p : prog C A) (w : W) : prog C A * W :=
  match n, p with
  | O, _ => (p, w)
  | _, Ret a => (p, w)
  | S n', Do c k =>
      match h _ c w with
      | None => (p, w)
      | Some (x, w') => crash_at h n' (k x) w'
      end
  end.

(* one command of a program; None when it is finished or blocked *)
Definition step {C W A} (h : handler C W) (p : prog C A) (w : W) : option (prog C A * W) :=
  match p with
  | Ret _ => None
  | Do c k =>
      match h _ c w with
      | None => None
      | Some (x, w') => Some (k x, w')
      end
  end.

Definition upd {A} (l : list A) (i : nat) (x : A) : list A :=
  firstn i l ++ match skipn i l with [] => [] | _ :: t => x :: t end.

(* threads running interleaved: the schedule names the thread making the next step; naming a
   finished, blocked or non-existent thread does nothing *)
Fixpoint interleave {C W A} (h : handler C W) (sched : list nat) (ts : list (prog C A)) (w : W)
  : list (prog C A) * W :=
  match sched with
  | [] => (ts, w)
  | i :: sched' =>
      match nth_error ts i with
      | None => interleave h sched' ts w
      | Some p =>
          match step h p w with
          | None => interleave h sched' ts w
          | Some (p', w') => interleave h sched' (upd ts i p') w'
          end
      end
  end.

(* the thread has returned a *)
Definition returned {C A} (p : prog C A) (a : A) : Prop := p = Ret a.

(* ------------------------------------------------------------------ *)
(** * Key-value stores (sled::Db, TiKV raw client) at their get/set interface *)

(* the content of a store: the sets made, latest first *)
Definition kv := list (bytes * bytes).
Fixpoint kv_get (s : kv) (k : bytes) : option bytes :=
  match s with
  | [] => None
  | (k', v) :: s' => if bytes_eqb k' k then Some v else kv_get s' k
  end.
Definition kv_set (s : kv) (k v : bytes) : kv := (k, v) :: s.

(* two stores with the same answers *)
Definition kv_same (a b : kv) : Prop := forall k, kv_get a k = kv_get b k.

(* sled Tree::get / contains_key / set, TiKvRawBackend::get / set; each atomic.  They may
   fail; a failed set may or may not have taken effect. *)
Inductive kcmd : Type -> Type :=
| KGet (k : bytes) : kcmd (res (option bytes))
| KSet (k v : bytes) : kcmd (res unit).

(* a store that does not fail *)
Definition kv_handler : handler kcmd kv :=
  fun X c s =>
    match c in kcmd X return option (X * kv) with
    | KGet k => Some (Ok (kv_get s k), s)
    | KSet k v => Some (Ok tt, kv_set s k v)
    end.

(* what a store operation does this time *)
Inductive fault := Works | FailsClean | FailsDirty.
(* a store that fails as told by the list (and works after its end) *)
Definition kv_fault_handler (e : err) : handler kcmd (kv * list fault) :=
  fun X c w =>
    let '(s, fs) := w in
    let f := hd Works fs in
    let fs' := tl fs in
    match c in kcmd X return option (X * (kv * list fault)) with
    | KGet k => Some (match f with Works => Ok (kv_get s k) | _ => Err e end, (s, fs'))
    | KSet k v =>
        Some match f with
             | Works => (Ok tt, (kv_set s k v, fs'))
             | FailsClean => (Err e, (s, fs'))
             | FailsDirty => (Err e, (kv_set s k v, fs'))
             end
    end.

(* running a store program alone on a store that does not fail always ends *)
Fixpoint krun {A} (p : prog kcmd A) (s : kv) : A * kv :=
  match p with
  | Ret a => (a, s)
  | Do c k =>
      match c in kcmd X return (X -> prog kcmd A) -> A * kv with
      | KGet key => fun k => krun (k (Ok (kv_get s key))) s
      | KSet key v => fun k => krun (k (Ok tt)) (kv_set s key v)
      end k
  end.
