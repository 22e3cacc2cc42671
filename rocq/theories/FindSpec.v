(* Specification vocabulary for looking up a file in a directory. *)
From Verif Require Import Rust WireSpec Find.

(* every entry that could be read has a name that is text *)
Definition all_text (l : list entry) : Prop := forall name, In (Some name) l -> unicode name.
(* the entries before the first with this name *)
Definition up_to (l : list entry) (filename : bytes) (before : list entry) : Prop :=
  (exists after, l = before ++ Some filename :: after /\ ~ In (Some filename) before) \/
  (l = before /\ ~ In (Some filename) before).
