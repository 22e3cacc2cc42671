(* Specification vocabulary for the public compaction API. *)
From Verif Require Import Rust Bstream Gorilla Compactor.

(* what a caller does with a compactor: feed a point, or take the bytes so far *)
Inductive cop := Feed (p : tp) | Take.

(* run the script; the outputs of the Take operations *)
Fixpoint cops_run (dbg : bool) (k : compactor) (os : list cop) : res (list bytes) :=
  match os with
  | [] => Ok []
  | Feed p :: os' => let* k' := compactor_compact dbg k p in cops_run dbg k' os'
  | Take :: os' =>
      let* b := compactor_bytes k in let* bs := cops_run dbg k os' in Ok (b :: bs)
  end.

(* all points fed *)
Definition fed (os : list cop) : list tp :=
  flat_map (fun o => match o with Feed p => [p] | Take => [] end) os.

(* the points fed before each Take *)
Fixpoint fed_before_takes (sofar : list tp) (os : list cop) : list (list tp) :=
  match os with
  | [] => []
  | Feed p :: os' => fed_before_takes (sofar ++ [p]) os'
  | Take :: os' => sofar :: fed_before_takes sofar os'
  end.
