(* Model of the standard library's slice::binary_search, which src/storage/common.rs:39-46 calls on
   the points of a series.  Comparison is by timestamp (src/common/time_point.rs:28-32). *)
From Verif Require Import Rust Prog Gorilla Storage.

(* the timestamp at an index; both searches look only inside the slice *)
Definition ts_at (l : list tp) (i : nat) : Z := match nth_error l i with Some p => tp_ts p | None => 0 end.

(* core::slice::binary_search_by before Rust 1.52 and again from 1.82: halve [base, base + size) until one element is
   left, then compare that one.  [fuel]: the loop body runs less often than the slice has elements *)
Fixpoint narrow (fuel : nat) (l : list tp) (t : Z) (base size : nat) : nat :=
  match fuel with
  | O => base
  | S fuel' =>
      if (size <=? 1)%nat then base
      else let half := Nat.div2 size in
           let mid := (base + half)%nat in
           narrow fuel' l t (if t <? ts_at l mid then base else mid) (size - half)
  end.
Definition halving_search : bsearch := fun l t =>
  match l with
  | [] => Missing 0
  | _ =>
      let base := narrow (length l) l t 0 (length l) in
      if ts_at l base =? t then Found base
      else Missing (if ts_at l base <? t then S base else base)
  end.

(* core::slice::binary_search_by from Rust 1.52 to 1.81: look in the middle of [lo, hi), stop at
   an equal element *)
Fixpoint bisect (fuel : nat) (l : list tp) (t : Z) (lo hi : nat) : found :=
  match fuel with
  | O => Missing lo
  | S fuel' =>
      if (lo <? hi)%nat then
        let mid := (lo + Nat.div2 (hi - lo))%nat in
        if ts_at l mid <? t then bisect fuel' l t (S mid) hi
        else if t <? ts_at l mid then bisect fuel' l t lo mid
        else Found mid
      else Missing lo
  end.
Definition stopping_search : bsearch := fun l t => bisect (S (length l)) l t 0 (length l).
