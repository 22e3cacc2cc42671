(* Specification vocabulary for work on a directory that earlier processes have left. *)
From Verif Require Import Rust Prog Gorilla GorillaSpec Storage StorageSpec Labels IndexSpec Chunk ChunkSpec LossSpec Db DbSpec ReopenSpec LossDbSpec.

(* from now on the file operations fail as fl says, one entry for each *)
Definition failing (fl : list bool) (w : dworld) : dworld :=
  let f := d_fs w in
  set_fs w (mkF (f_meta f) (f_dirs f) (f_order f) (f_clock f) (f_ticks f) (f_uuid f) (f_drawn f) fl).

(* processes one after the other, each ended by a power failure in which its chunks lost as many
   sets as told (none: it just stopped); the chunks they leave, and the reading of the clock with
   which the next opening starts its own chunk *)
Fixpoint left_parts (clock : nat -> Z) (tick n : nat) (L : list (life * list nat)) : list part :=
  match L with
  | [] => []
  | (x, losses) :: L' =>
      let hs := hists (lf_cf x) (clock (tick + n)%nat) (lf_ops x) in
      survivors hs losses ++ left_parts clock (S (tick + n)) (n + length hs) L'
  end.
Fixpoint opened_at (clock : nat -> Z) (tick n : nat) (L : list (life * list nat)) : Z :=
  match L with
  | [] => clock (tick + n)%nat
  | (x, _) :: L' => opened_at clock (S (tick + n)) (n + length (hists (lf_cf x) (clock (tick + n)%nat) (lf_ops x))) L'
  end.
(* then the directory is opened once more *)
Definition once_more (L : list (life * list nat)) (cf : config) : list (life * list nat) := L ++ [(mkLife cf [], [])].

(* the same chunk, read again from the disk: its window may end elsewhere, but not before one of
   its points *)
Definition reread (c c' : part) : Prop :=
  snd c' = snd c /\ c_start (fst c') = c_start (fst c) /\
  forall ls pts p, In (ls, pts) (snd c) -> In p pts -> tp_ts p <= c_end (fst c) /\ tp_ts p <= c_end (fst c').

(* a point that an earlier process accepted, and then stopped without losing anything *)
Fixpoint accepted_before (clock : nat -> Z) (tick n : nat) (L : list (life * list nat)) (ls : list label) (p : tp) : Prop :=
  match L with
  | [] => False
  | (x, losses) :: L' =>
      let start := clock (tick + n)%nat in
      (losses = [] /\ exists i, nth_error (lf_ops x) i = Some (OpPoint ls p) /\ nth_error (outcomes (lf_cf x) start (lf_ops x)) i = Some (Ok tt)) \/
      accepted_before clock (S (tick + n)) (n + length (hists (lf_cf x) start (lf_ops x))) L' ls p
  end.
