(* Properties of the comparisons of time points: C51. *)
From Coq Require Import ZifyBool ZifyNat.
From Verif Require Import Rust Gorilla TimePoint TimePointSpec TimePointProofs.

(** * C51: equality of time points ignores the value *)

(* for all finite values, time points are equal iff their timestamps are *)
Theorem C51_value_ignored : forall a b,
  bits64 (tp_val a) -> bits64 (tp_val b) -> finite (tp_val a) -> finite (tp_val b) ->
  (tp_eq a b = true <-> tp_ts a = tp_ts b).
Proof. exact tp_eq_finite. Qed.
Print Assumptions C51_value_ignored.

(* in full, with infinities and NaN *)
Theorem C51_equal_iff : forall a b,
  bits64 (tp_val a) -> bits64 (tp_val b) ->
  (tp_eq a b = true <->
   tp_ts a = tp_ts b /\ ~ nan (tp_val a) /\ ~ nan (tp_val b) /\
   ~ (tp_val a = tp_val b /\ (tp_val a = plus_infinity \/ tp_val a = minus_infinity))).
Proof. exact tp_eq_iff. Qed.
Print Assumptions C51_equal_iff.

(* so different values need not compare unequal: 1.0 and 1000.0, the largest and the smallest *)
Definition f64_one : Z := 1023 * 2 ^ 52.
Definition f64_thousand : Z := 4652007308841189376.
Theorem C51_values_differ_refuted :
  ~ forall a b, finite (tp_val a) -> finite (tp_val b) -> tp_val a <> tp_val b -> tp_eq a b = false.
Proof.
  intros H. assert (X: tp_eq (mkTp 5 f64_one) (mkTp 5 f64_thousand) = false) by (apply H; vm_compute; discriminate).
  vm_compute in X. discriminate X.
Qed.
Print Assumptions C51_values_differ_refuted.

(* nor is the equality reflexive or transitive, although TimePoint claims Eq: an infinite value is
   unequal to itself, and equal to every finite one *)
Theorem C51_reflexive_refuted : exists a, ~ nan (tp_val a) /\ bits64 (tp_val a) /\ tp_eq a a = false.
Proof. exists (mkTp 5 plus_infinity). split; [unfold nan; vm_compute; tauto|]. split; [unfold bits64; vm_compute; split; [discriminate|reflexivity]|]. vm_compute. reflexivity. Qed.
Print Assumptions C51_reflexive_refuted.
Theorem C51_transitive_refuted : exists a b, tp_eq a b = true /\ tp_eq b a = true /\ tp_eq a a = false.
Proof. exists (mkTp 5 plus_infinity), (mkTp 5 f64_one). repeat split; vm_compute; reflexivity. Qed.
Print Assumptions C51_transitive_refuted.
Theorem C51_symmetric : forall a b, tp_eq a b = tp_eq b a.
Proof. exact tp_eq_sym. Qed.
Print Assumptions C51_symmetric.

(* the order is that of the timestamps *)
Theorem C51_order : forall a b, (tp_cmp a b = Lt <-> tp_ts a < tp_ts b) /\ (tp_cmp a b = Eq <-> tp_ts a = tp_ts b).
Proof. intros a b. unfold tp_cmp. split; [reflexivity|apply Z.compare_eq_iff]. Qed.
Print Assumptions C51_order.

(* the hypotheses are met; the subtraction is the rounded one *)
Example C51_ex :
  finite f64_one /\ finite f64_thousand /\ bits64 f64_one /\ bits64 f64_thousand /\
  f64_sub (f64_of f64_thousand) (f64_of f64_one) = f64_of 4651998512748167168 /\
  tp_eq (mkTp 5 f64_one) (mkTp 5 f64_thousand) = true /\ tp_eq (mkTp 5 f64_one) (mkTp 6 f64_one) = false.
Proof. unfold finite, bits64. repeat split; try (vm_compute; reflexivity); vm_compute; discriminate. Qed.
