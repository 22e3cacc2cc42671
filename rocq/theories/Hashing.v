(* Model of src/common/label.rs: what is hashed of a label set, and its hash. *)
From Verif Require Import Rust Labels.

(* src/common/label.rs:6-10 derive(Hash) for Label: the bytes fed to the hasher.  A String feeds its bytes and then 255
   (core: Hash for str) *)
Definition hash_text (s : bytes) : bytes := s ++ [255].
Definition label_fed (l : label) : bytes := hash_text (l_key l) ++ hash_text (l_val l).
(* src/common/label.rs:89-95 Hash for Labels: label after label, without their number *)
Fixpoint labels_fed (ls : list label) : bytes :=
  match ls with
  | [] => []
  | l :: ls' => label_fed l ++ labels_fed ls'
  end.

(* SipHash-1-3 with both keys 0, which DefaultHasher::new() is (std; it does not promise to stay so).  Words of 64 bits *)
Definition w64 (x : Z) : Z := x mod 2 ^ 64.
Definition rot (n x : Z) : Z := w64 (Z.lor (Z.shiftl x n) (Z.shiftr x (64 - n))).
Definition sip_round (v : Z * Z * Z * Z) : Z * Z * Z * Z :=
  let '(v0, v1, v2, v3) := v in
  let v0 := w64 (v0 + v1) in let v1 := Z.lxor (rot 13 v1) v0 in let v0 := rot 32 v0 in
  let v2 := w64 (v2 + v3) in let v3 := Z.lxor (rot 16 v3) v2 in
  let v0 := w64 (v0 + v3) in let v3 := Z.lxor (rot 21 v3) v0 in
  let v2 := w64 (v2 + v1) in let v1 := Z.lxor (rot 17 v1) v2 in let v2 := rot 32 v2 in
  (v0, v1, v2, v3).
Definition sip_word (v : Z * Z * Z * Z) (m : Z) : Z * Z * Z * Z :=
  let '(v0, v1, v2, v3) := v in
  let '(v0, v1, v2, v3) := sip_round (v0, v1, v2, Z.lxor v3 m) in
  (Z.lxor v0 m, v1, v2, v3).
(* little-endian; the last word has the bytes left over and the length modulo 256 on top *)
Fixpoint le_word (b : bytes) : Z := match b with [] => 0 | x :: b' => x + 256 * le_word b' end.
Fixpoint sip_words (fuel : nat) (len : Z) (b : bytes) (v : Z * Z * Z * Z) : Z * Z * Z * Z :=
  match fuel with
  | O => v
  | S f =>
      if (8 <=? length b)%nat then sip_words f len (skipn 8 b) (sip_word v (le_word (firstn 8 b)))
      else sip_word v (le_word b + 2 ^ 56 * (len mod 256))
  end.
Definition sip13 (b : bytes) : Z :=
  let v := (8317987319222330741, 7237128888997146477, 7816392313619706465, 8387220255154660723) in
  let '(v0, v1, v2, v3) := sip_words (S (length b)) (Z.of_nat (length b)) b v in
  let '(v0, v1, v2, v3) := sip_round (sip_round (sip_round (v0, v1, Z.lxor v2 255, v3))) in
  Z.lxor (Z.lxor v0 v1) (Z.lxor v2 v3).

(* src/common/label.rs:127-131 get_hash *)
Definition get_hash (ls : list label) : Z := sip13 (labels_fed ls).
