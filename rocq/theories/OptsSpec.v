(* Specification vocabulary for the options: numerals. *)
From Coq Require Import String.
From Verif Require Import Rust Opts.
Local Notation length := List.length.

(* decimal digits and the number they stand for *)
Definition digit (c : Z) : Prop := 48 <= c <= 57.
Definition digits (s : bytes) : Prop := s <> [] /\ Forall digit s.
Definition number (s : bytes) : Z := fold_left (fun n c => 10 * n + (c - 48)) s 0.
(* numerals with an optional plus, or with an optional sign *)
Definition unsigned (s : bytes) (z : Z) : Prop :=
  exists t, (s = t \/ s = 43 :: t) /\ digits t /\ z = number t.
Definition signed (s : bytes) (z : Z) : Prop :=
  unsigned s z \/ exists t, s = 45 :: t /\ digits t /\ z = - number t.

(* the names of the backends *)
Definition backend_name (s : bytes) : Prop := s = s2b "sled" \/ s = s2b "tikv".

(* the kind of a component *)
Definition kind_for (name : bytes) (dry : bool) (k : kind) : Prop :=
  (name = s2b "sled" /\ k = KSled) \/ (name = s2b "tikv" /\ k = KTiKv dry).
Definition wants_tikv (a : args) : Prop := a_storage a = s2b "tikv" \/ a_indexer a = s2b "tikv".
(* whether TiKV runs dry: no configuration file, or one that says so *)
Definition dry_run (file : bytes -> option bool) (a : args) (dry : bool) : Prop :=
  match a_tikv a with None => dry = true | Some path => file path = Some dry end.
