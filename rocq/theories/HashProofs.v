(* Proofs: comparing and hashing label sets. *)
From Coq Require Import ZifyBool ZifyNat Permutation.
From Verif Require Import WireSpec.
From Verif Require Import Rust StringProofs BitsProofs CrcProofs Labels IndexSpec LabelProofs Hashing.

(** ** equality *)
Lemma label_eqb_true a b : label_eqb a b = true <-> a = b.
Proof.
  unfold label_eqb. rewrite andb_true_iff. destruct a as [k v], b as [k' v']. cbn [l_key l_val]. split.
  - intros [H1 H2]. apply bytes_eqb_spec in H1. apply bytes_eqb_spec in H2. congruence.
  - intros H. injection H as -> ->. now rewrite !bytes_eqb_refl.
Qed.
Theorem labels_eq_spec a : forall b,
  (labels_eq a b = Ok true <-> exists x, b = a ++ x) /\
  (labels_eq a b = Panic <-> exists x, x <> [] /\ a = b ++ x) /\
  (labels_eq a b = Ok false <-> exists p x y a' b', a = p ++ x :: a' /\ b = p ++ y :: b' /\ x <> y).
Proof.
  induction a as [|x a IH]; intros [|y b]; cbn [labels_eq].
  - split; [split; [exists []; reflexivity|reflexivity]|]. split; (split; [discriminate|]).
    + intros (x & N & E). cbn [app] in E. congruence.
    + intros ([|? ?] & ? & ? & ? & ? & E & _); discriminate E.
  - split; [split; [intros _; now exists (y :: b)|reflexivity]|]. split; (split; [discriminate|]).
    + intros (x & N & E). discriminate E.
    + intros ([|? ?] & ? & ? & ? & ? & E & _); discriminate E.
  - split; [split; [discriminate|intros (z & E); discriminate E]|]. split.
    + split; [|reflexivity]. intros _. exists (x :: a). split; [discriminate|reflexivity].
    + split; [discriminate|]. intros ([|? ?] & ? & ? & ? & ? & _ & E & _); discriminate E.
  - destruct (label_eqb x y) eqn:E.
    + apply label_eqb_true in E. subst y. destruct (IH b) as (I1 & I2 & I3). split; [|split].
      * rewrite I1. split; intros (z & H); exists z; cbn [app] in *; congruence.
      * rewrite I2. split; intros (z & N & H); exists z; cbn [app] in *; (split; [exact N|congruence]).
      * rewrite I3. split.
        -- intros (p & u & v & a' & b' & -> & -> & N). now exists (x :: p), u, v, a', b'.
        -- intros (p & u & v & a' & b' & H1 & H2 & N). destruct p as [|z p]; cbn [app] in H1, H2.
           ++ exfalso. apply N. congruence.
           ++ exists p, u, v, a', b'. split; [congruence|]. split; [congruence|exact N].
    + assert (N: x <> y) by (intros ->; rewrite (proj2 (label_eqb_true y y) eq_refl) in E; discriminate).
      split; [split; [discriminate|intros (z & H); cbn [app] in H; congruence]|]. split; [split; [discriminate|intros (z & _ & H); cbn [app] in H; congruence]|].
      split; [|reflexivity]. intros _. exists [], x, y, a, b. auto.
Qed.

(** ** what is hashed *)
Definition no255 (s : bytes) : Prop := ~ In 255 s.
Lemma unicode_no255 s : unicode s -> no255 s.
Proof.
  intros (cs & F & ->) H. apply in_concat in H as (b & Hb & H). apply in_map_iff in Hb as (c & <- & Hc). rewrite Forall_forall in F. destruct (F c Hc) as [F1 _].
  unfold encode_scalar in H. repeat (destruct (_ <? _) eqn:? in H); cbn [In] in H;
    repeat (destruct H as [H|H]; [Z.div_mod_to_equations; lia|]); contradiction.
Qed.
Lemma hash_text_inj a : forall b r r', no255 a -> no255 b -> hash_text a ++ r = hash_text b ++ r' -> a = b /\ r = r'.
Proof.
  unfold hash_text. induction a as [|x a IH]; intros [|y b] r r' Ha Hb H; cbn [app] in H.
  - split; [reflexivity|congruence].
  - exfalso. apply Hb. left. congruence.
  - exfalso. apply Ha. left. congruence.
  - destruct (IH b r r') as [-> ->]; [intros K; apply Ha; now right|intros K; apply Hb; now right|congruence|]. split; [congruence|reflexivity].
Qed.
Definition texts (ls : list label) : Prop := Forall (fun l => no255 (l_key l) /\ no255 (l_val l)) ls.
Lemma fed_inj a : forall b, texts a -> texts b -> labels_fed a = labels_fed b -> a = b.
Proof.
  assert (NE: forall l r, label_fed l ++ r <> []).
  { intros l r H. unfold label_fed, hash_text in H. destruct (l_key l); discriminate H. }
  induction a as [|x a IH]; intros [|y b] Ha Hb H; cbn [labels_fed] in H.
  - reflexivity.
  - exfalso. exact (NE y (labels_fed b) (eq_sym H)).
  - exfalso. exact (NE x (labels_fed a) H).
  - inversion Ha as [|? ? [A1 A2] A3]; subst. inversion Hb as [|? ? [B1 B2] B3]; subst. unfold label_fed in H. rewrite <- !app_assoc in H.
    apply hash_text_inj in H as [E1 H]; [|assumption|assumption]. apply hash_text_inj in H as [E2 H]; [|assumption|assumption].
    destruct x as [kx vx], y as [ky vy]. cbn [l_key l_val] in *. rewrite (IH b) by assumption. congruence.
Qed.

(** ** the hash is a 64-bit number *)
Lemma w64_inr x : inr 64 (w64 x).
Proof. unfold inr, w64. apply Z.mod_pos_bound. lia. Qed.
Definition words (v : Z * Z * Z * Z) : Prop := let '(v0, v1, v2, v3) := v in inr 64 v0 /\ inr 64 v1 /\ inr 64 v2 /\ inr 64 v3.
Lemma round_words v : words (sip_round v).
Proof.
  destruct v as [[[v0 v1] v2] v3]. unfold sip_round, words, rot.
  split; [apply w64_inr|]. split; [apply lxor_inr; [lia|apply w64_inr|apply w64_inr]|]. split; [apply w64_inr|apply lxor_inr; [lia|apply w64_inr|apply w64_inr]].
Qed.
Theorem sip_range b : 0 <= sip13 b < 2 ^ 64.
Proof.
  unfold sip13. destruct (sip_words _ _ b _) as [[[v0 v1] v2] v3]. pose proof (round_words (sip_round (sip_round (v0, v1, Z.lxor v2 255, v3)))) as R.
  destruct (sip_round (sip_round (sip_round (v0, v1, Z.lxor v2 255, v3)))) as [[[u0 u1] u2] u3]. destruct R as (R0 & R1 & R2 & R3).
  change (inr 64 (Z.lxor (Z.lxor u0 u1) (Z.lxor u2 u3))). apply lxor_inr; [lia| |]; apply lxor_inr; try assumption; lia.
Qed.
