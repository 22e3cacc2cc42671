(* Property C72: label sets compared and hashed. *)
From Coq Require Import ZifyBool ZifyNat Permutation String.
From Verif Require Import WireSpec.
From Verif Require Import Rust Labels IndexSpec LabelProofs Chunk ChunkSpec Db DbSpec MapProofs Hashing HashProofs SipSpec SipProofs PropsChunk.
Local Notation lab k v := (mkLabel (s2b k) (s2b v)).
Local Notation length := List.length.

(** C72 *)
(* a == b exactly if a is a prefix of b; it panics exactly if b is a proper prefix of a *)
Theorem C72_equal : forall a b,
  (labels_eq a b = Ok true <-> exists x, b = a ++ x) /\
  (labels_eq a b = Panic <-> exists x, x <> [] /\ a = b ++ x) /\
  (labels_eq a b = Ok false <-> exists p x y a' b', a = p ++ x :: a' /\ b = p ++ y :: b' /\ x <> y).
Proof. exact labels_eq_spec. Qed.
Print Assumptions C72_equal.
(* different lists of labels feed different bytes to a hasher *)
Theorem C72_fed : forall a b, Forall (fun l => unicode (l_key l) /\ unicode (l_val l)) a -> Forall (fun l => unicode (l_key l) /\ unicode (l_val l)) b ->
  labels_fed a = labels_fed b -> a = b.
Proof.
  intros a b Ha Hb. apply fed_inj; (eapply Forall_impl; [|eassumption]); intros l [H1 H2]; split; now apply unicode_no255.
Qed.
Print Assumptions C72_fed.
(* a map that compares keys of equal hashes only, whatever the hash function (the keys of which HashMap draws at random), is unmixed
   if no two label sets of the answer that feed different bytes have the same hash *)
Theorem C72_unmixed : forall hs (H : bytes -> Z) l q s e,
  (forall ks k i k', In i (h_probe hs ks k) -> nth_error ks i = Some k' -> H (labels_fed k') = H (labels_fed k)) ->
  (forall c c' m m', In c l -> In c' l -> piece c q s e m <> [] -> piece c' q s e m' <> [] -> H (labels_fed m) = H (labels_fed m') -> labels_fed m = labels_fed m') ->
  unmixed hs l q s e.
Proof.
  assert (NE: forall a x, labels_fed (a ++ x) = labels_fed a -> x = []).
  { intros a x E. destruct x as [|y x]; [reflexivity|]. exfalso. assert (L: (length (labels_fed (a ++ y :: x)) = length (labels_fed a))%nat) by now rewrite E.
    clear E. induction a as [|z a IH]; cbn [app labels_fed] in L; rewrite ?app_length in L.
    - unfold label_fed, hash_text in L. rewrite !app_length in L. cbn [length] in L. lia.
    - apply IH. lia. }
  intros hs H l q s e H1 H2 ks k i k' x (c & Hc & P) Hks Hi N E. destruct (Hks k' (nth_error_In _ _ N)) as (c' & Hc' & P'). pose proof (H1 _ _ _ _ Hi N) as T.
  pose proof (H2 c' c k' k Hc' Hc P' P T) as F. destruct E as [-> | ->]; [exact (NE k x F)|exact (NE k' x (eq_sym F))].
Qed.
Print Assumptions C72_unmixed.
(* the hash is a 64-bit number, and the same for the same set of labels in name order *)
Theorem C72_hash : forall a b, 0 <= get_hash a < 2 ^ 64 /\ (keys_distinct a -> Permutation a b -> get_hash (sort_labels a) = get_hash (sort_labels b)).
Proof. intros a b. split; [apply sip_range|]. intros K P. now rewrite (sort_perm_eq a b K P). Qed.
Print Assumptions C72_hash.
(* the hash is the SipHash-1-3, with both keys 0, of each name and value followed by the byte 255 *)
Theorem C72_siphash : forall ls, Forall (fun l => Forall is_byte (l_key l) /\ Forall is_byte (l_val l)) ls ->
  get_hash ls = siphash13 (List.concat (map (fun l => l_key l ++ [255] ++ l_val l ++ [255]) ls)).
Proof. exact get_hash_siphash. Qed.
Print Assumptions C72_siphash.
(* the value was computed by another implementation of SipHash-1-3 with keys 0 *)
Example C72_case : Forall (fun l => unicode (l_key l) /\ unicode (l_val l)) [lab "job" "a"; lab "host" "x"] /\
  labels_fed [lab "job" "a"; lab "host" "x"] = s2b "job" ++ [255] ++ s2b "a" ++ [255] ++ s2b "host" ++ [255] ++ s2b "x" ++ [255] /\
  get_hash [lab "job" "a"; lab "host" "x"] = 17630286007698651141 /\
  Forall (fun l => Forall is_byte (l_key l) /\ Forall is_byte (l_val l)) [lab "job" "a"; lab "host" "x"].
Proof.
  split; [|split; [vm_compute; reflexivity|]; split; [vm_compute; reflexivity|repeat constructor; vm_compute; repeat constructor; discriminate]].
  assert (A: forall s, Forall (fun c => 0 <= c < 128) s -> unicode s).
  { intros s F. exists s. split; [eapply Forall_impl; [|exact F]; intros c Hc; cbn beta in *; split; lia|].
    induction F as [|c s Hc F IH]; [reflexivity|]. cbn [map concat]. rewrite <- IH. unfold encode_scalar. replace (c <? 128) with true by lia. reflexivity. }
  repeat constructor; apply A; cbn; repeat constructor; lia.
Qed.
(* "keys that are equal have equal hashes": false.  {host=x} equals {host=x, job=a}, and not the other way round *)
Theorem C72_contract_refuted : exists a b, labels_eq a b = Ok true /\ get_hash a <> get_hash b /\ labels_eq b a = Panic.
Proof. exists [lab "host" "x"], [lab "host" "x"; lab "job" "a"]. split; [reflexivity|]. split; [vm_compute; discriminate|reflexivity]. Qed.
Print Assumptions C72_contract_refuted.
(* "the hash does not depend on the order of the labels": false *)
Theorem C72_order_refuted : exists a b, keys_distinct a /\ Permutation a b /\ get_hash a <> get_hash b.
Proof.
  exists [lab "host" "x"; lab "job" "a"], [lab "job" "a"; lab "host" "x"]. split; [|split; [apply perm_swap|vm_compute; discriminate]].
  unfold keys_distinct. cbn [map l_key]. constructor; [intros [H|[]]; vm_compute in H; discriminate H|]. constructor; [intros []|constructor].
Qed.
Print Assumptions C72_order_refuted.
