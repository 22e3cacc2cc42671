(* Specification vocabulary: comparing a build with overflow checks and one without. *)
From Verif Require Import Rust.

(* what the build with overflow checks does (first) and the one without (second): the first
   panics, or both return the same, be it a value or an error *)
Definition agrees {A} (checked unchecked : res A) : Prop := checked = Panic \/ checked = unchecked.
