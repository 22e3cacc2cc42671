(* Proofs about the comparisons of time points. *)
From Coq Require Import ZifyBool ZifyNat SpecFloat.
From Verif Require Import Rust Gorilla TimePoint TimePointSpec.

(* rounding keeps the sign and gives no NaN *)
Definition signed_with (s : bool) (x : spec_float) : Prop :=
  match x with S754_zero t => t = s | S754_infinity t => t = s | S754_finite t _ _ => t = s | S754_nan => False end.

Lemma shr_1_nonneg r : 0 <= shr_m r -> 0 <= shr_m (shr_1 r).
Proof. destruct r as [[|[p|p|]|[p|p|]] b c]; cbn; lia. Qed.
Lemma iter_nonneg p : forall r, 0 <= shr_m r -> 0 <= shr_m (SpecFloat.iter_pos shr_1 p r).
Proof.
  induction p as [p IH|p IH|]; intros r H; cbn [SpecFloat.iter_pos].
  - apply IH, IH, shr_1_nonneg, H.
  - apply IH, IH, H.
  - apply shr_1_nonneg, H.
Qed.
Lemma shr_nonneg r e n : 0 <= shr_m r -> 0 <= shr_m (fst (shr r e n)).
Proof. intros H. destruct n as [|p|p]; cbn [shr fst]; [exact H|apply iter_nonneg, H|exact H]. Qed.
Lemma record_m m l : shr_m (shr_record_of_loc m l) = m.
Proof. destruct l as [|[| |]]; reflexivity. Qed.
Lemma shr_fexp_nonneg prec emax m e l : 0 <= m -> 0 <= shr_m (fst (shr_fexp prec emax m e l)).
Proof. intros H. apply shr_nonneg. rewrite record_m. exact H. Qed.
Lemma even_nonneg m l : 0 <= m -> 0 <= round_nearest_even m l.
Proof. destruct l as [|[| |]]; cbn; try lia. destruct (Z.even m); lia. Qed.
Lemma round_signed prec emax s m e l : 0 <= m -> signed_with s (binary_round_aux prec emax s m e l).
Proof.
  intros H. unfold binary_round_aux. pose proof (shr_fexp_nonneg prec emax m e l H) as H1.
  destruct (shr_fexp prec emax m e l) as [r1 e1]. cbn [fst] in H1.
  pose proof (shr_fexp_nonneg prec emax _ e1 loc_Exact (even_nonneg (shr_m r1) (loc_of_shr_record r1) H1)) as H2.
  destruct (shr_fexp prec emax (round_nearest_even (shr_m r1) (loc_of_shr_record r1)) e1 loc_Exact) as [r2 e2]. cbn [fst] in H2.
  destruct (shr_m r2) as [|p|p]; [reflexivity| |lia]. destruct (e2 <=? emax - prec); reflexivity.
Qed.
Lemma binary_round_signed prec emax s p e : signed_with s (binary_round prec emax s p e).
Proof. unfold binary_round. destruct (shl_align p e _) as [mz ez]. apply round_signed. lia. Qed.

(* what is below a positive number *)
Lemma below_lt x p e : (signed_with true x \/ exists t, x = S754_zero t) -> f64_lt x (S754_finite false p e) = true.
Proof. intros [H|[t ->]]; [|reflexivity]. destruct x as [t|t| |t m k]; cbn in H; try contradiction; subst; reflexivity. Qed.
Lemma normalize_below z e : z <= 0 -> signed_with true (binary_normalize 53 1024 z e false) \/ exists t, binary_normalize 53 1024 z e false = S754_zero t.
Proof. intros H. destruct z as [|p|p]; cbn [binary_normalize]; [eauto|lia|left; apply binary_round_signed]. Qed.

(* the margin is positive *)
Lemma margin : f64_of F64_MARGIN = S754_finite false 4835703278458517 (-82).
Proof. vm_compute. reflexivity. Qed.

Definition is_finite (x : spec_float) : Prop := match x with S754_zero _ | S754_finite _ _ _ => True | _ => False end.
Lemma finite_close x y p e : is_finite x -> is_finite y ->
  f64_lt (f64_sub x y) (S754_finite false p e) || f64_lt (f64_sub y x) (S754_finite false p e) = true.
Proof.
  intros Hx Hy. apply orb_true_iff. destruct x as [sx|sx| |sx mx ex], y as [sy|sy| |sy my ey]; try contradiction; unfold f64_sub, SFsub.
  - left. destruct (Bool.eqb sx (negb sy)); reflexivity.
  - destruct sy; [right|left]; reflexivity.
  - destruct sx; [left|right]; reflexivity.
  - cbv zeta. rewrite (Z.min_comm ey ex). set (k := Z.min ex ey).
    set (a := cond_Zopp sx (Zpos (fst (shl_align mx ex k)))). set (b := cond_Zopp sy (Zpos (fst (shl_align my ey k)))).
    destruct (Z.le_gt_cases a b) as [L|L]; [left|right]; apply below_lt, normalize_below; lia.
Qed.
(* with infinities and NaN *)
Definition strange (x y : spec_float) : Prop :=
  x = S754_nan \/ y = S754_nan \/ exists s, x = S754_infinity s /\ y = S754_infinity s.
Lemma close_iff x y p e :
  f64_lt (f64_sub x y) (S754_finite false p e) || f64_lt (f64_sub y x) (S754_finite false p e) = true <-> ~ strange x y.
Proof.
  assert (D: (is_finite x /\ is_finite y) \/ ~ (is_finite x /\ is_finite y)) by (destruct x, y; cbn; tauto).
  destruct D as [[Hx Hy]|N].
  - rewrite finite_close by assumption. split; [intros _|reflexivity]. intros [->|[->|(s & -> & ->)]]; contradiction.
  - unfold strange. destruct x as [sx|sx| |sx mx ex], y as [sy|sy| |sy my ey]; try destruct sx; try destruct sy; cbn in *;
      try tauto; (split; [first [intros X; discriminate X|intros _ [X|[X|(s & X & Y)]]; congruence]|]);
      intros X; try reflexivity; exfalso; apply X; eauto.
Qed.

Lemma f64_nan b : f64_of b = S754_nan <-> nan b.
Proof.
  unfold f64_of, nan, exponent, fraction. cbv zeta. pose proof (Z.mod_pos_bound b (2 ^ 52) ltac:(lia)).
  destruct (b / 2 ^ 52 mod 2 ^ 11 =? 2047) eqn:E.
  - destruct (b mod 2 ^ 52 =? 0) eqn:F; (split; [|]); intros; try reflexivity; try discriminate; lia.
  - destruct (b / 2 ^ 52 mod 2 ^ 11 =? 0) eqn:E0.
    + destruct (b mod 2 ^ 52); (split; [discriminate|lia]).
    + destruct (b mod 2 ^ 52 + 2 ^ 52) eqn:Q; try (exfalso; lia). split; [discriminate|lia].
Qed.
Lemma f64_infinity b s : bits64 b -> f64_of b = S754_infinity s <-> b = if s then minus_infinity else plus_infinity.
Proof.
  intros Hb. split.
  - unfold f64_of. cbv zeta. destruct (b / 2 ^ 52 mod 2 ^ 11 =? 2047) eqn:E.
    + destruct (b mod 2 ^ 52 =? 0) eqn:F; [|discriminate]. intros X.
      assert (s = (b / 2 ^ 63 mod 2 =? 1)) as -> by congruence. unfold minus_infinity, plus_infinity. unfold bits64 in Hb.
      destruct (b / 2 ^ 63 mod 2 =? 1) eqn:G; lia.
    + destruct (b / 2 ^ 52 mod 2 ^ 11 =? 0); [destruct (b mod 2 ^ 52)|destruct (b mod 2 ^ 52 + 2 ^ 52)]; discriminate.
  - intros ->. destruct s; vm_compute; reflexivity.
Qed.

Theorem tp_eq_iff a b : bits64 (tp_val a) -> bits64 (tp_val b) ->
  tp_eq a b = true <->
  tp_ts a = tp_ts b /\ ~ nan (tp_val a) /\ ~ nan (tp_val b) /\
  ~ (tp_val a = tp_val b /\ (tp_val a = plus_infinity \/ tp_val a = minus_infinity)).
Proof.
  intros Ha Hb. unfold tp_eq. rewrite margin, andb_true_iff, close_iff. unfold strange. rewrite !f64_nan, Z.eqb_eq. split.
  - intros [T N]. split; [exact T|]. split; [tauto|]. split; [tauto|]. intros [E [P|P]]; apply N; right; right.
    + exists false. split; apply f64_infinity; try assumption; cbv iota; congruence.
    + exists true. split; apply f64_infinity; try assumption; cbv iota; congruence.
  - intros (T & N1 & N2 & N3). split; [exact T|]. intros [X|[X|(s & X & Y)]]; [tauto|tauto|].
    apply f64_infinity in X; [|assumption]. apply f64_infinity in Y; [|assumption]. apply N3. split; [congruence|]. destruct s; tauto.
Qed.
Lemma finite_not_nan b : finite b -> ~ nan b.
Proof. unfold finite, nan. tauto. Qed.
Lemma finite_not_inf b : finite b -> b <> plus_infinity /\ b <> minus_infinity.
Proof. intros F. split; intros ->; apply F; vm_compute; reflexivity. Qed.
Theorem tp_eq_finite a b : bits64 (tp_val a) -> bits64 (tp_val b) -> finite (tp_val a) -> finite (tp_val b) ->
  (tp_eq a b = true <-> tp_ts a = tp_ts b).
Proof.
  intros Ha Hb Fa Fb. rewrite tp_eq_iff by assumption. pose proof (finite_not_nan _ Fa). pose proof (finite_not_nan _ Fb). pose proof (finite_not_inf _ Fa). tauto.
Qed.
Lemma tp_eq_sym a b : tp_eq a b = tp_eq b a.
Proof. unfold tp_eq. rewrite Z.eqb_sym. f_equal. apply orb_comm. Qed.
