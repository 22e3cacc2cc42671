(* Specification vocabulary for chunk directory names and paths. *)
From Verif Require Import Rust Utils.

(* c is the hexadecimal digit with value d *)
Definition hex_digit (c d : Z) : Prop :=
  48 <= c <= 57 /\ d = c - 48 \/ 97 <= c <= 102 /\ d = c - 87 \/ 65 <= c <= 70 /\ d = c - 55.
(* ds are the digit values of the text *)
Definition hex_digits (text ds : list Z) : Prop := Forall2 hex_digit text ds.
(* the number written with these digits *)
Fixpoint hex_number (ds : list Z) : Z :=
  match ds with [] => 0 | d :: ds' => d * 16 ^ Z.of_nat (length ds') + hex_number ds' end.
(* the text is a hexadecimal number v of at most 128 bits; a plus sign may come first *)
Definition hex_text (text : list Z) (v : Z) : Prop :=
  exists body ds, (text = body \/ text = 43 :: body) /\ body <> [] /\ hex_digits body ds /\
    v = hex_number ds /\ v < 2 ^ 128.

(* a name without separators *)
Definition plain_name (name : list Z) : Prop := ~ In slash name.
Definition ascii (s : list Z) : Prop := Forall (fun c => 0 <= c < 128) s.
(* how many bytes a path has more than characters *)
Definition surplus (s : list Z) : Z := str_len s - Z.of_nat (length s).
Definition u64 (z : Z) : Prop := 0 <= z < 2 ^ 64.
