(* Proofs about the intersection of id lists (C18). *)
From Coq Require Import ZifyBool ZifyNat Permutation Sorted.
From Verif Require Import Rust Labels IndexSpec.
Ltac Zify.zify_post_hook ::= Z.div_mod_to_equations.

Lemma asc_inv x l : ascending (x :: l) -> ascending l /\ Forall (Z.lt x) l.
Proof. intros H. inversion H; subst. split; assumption. Qed.

Lemma oi_eq x a y b : order_intersect (x :: a) (y :: b) =
  if x =? y then x :: order_intersect a b
  else if y <? x then order_intersect (x :: a) b else order_intersect a (y :: b).
Proof. reflexivity. Qed.
Lemma oi_nil_r a : order_intersect a [] = [].
Proof. destruct a; reflexivity. Qed.
Lemma oi_nil_l b : order_intersect [] b = [].
Proof. destruct b; reflexivity. Qed.

Lemma oi_spec a : forall b, ascending a -> ascending b ->
  ascending (order_intersect a b) /\ (forall x, In x (order_intersect a b) <-> In x a /\ In x b).
Proof.
  induction a as [|x a IHa]; intros b Ha Hb.
  - rewrite oi_nil_l. split; [constructor|]. cbn. tauto.
  - pose proof (asc_inv _ _ Ha) as [Ha' Fa].
    induction b as [|y b IHb].
    + rewrite oi_nil_r. split; [constructor|]. cbn. tauto.
    + pose proof (asc_inv _ _ Hb) as [Hb' Fb]. rewrite oi_eq.
      rewrite Forall_forall in Fa, Fb.
      destruct (x =? y) eqn:E1.
      * assert (x = y) by lia. subst y. destruct (IHa b Ha' Hb') as [S1 S2]. split.
        -- constructor; [assumption|]. rewrite Forall_forall. intros z Hz. apply S2 in Hz. now apply Fa.
        -- intros z. cbn [In]. rewrite S2. split.
           ++ intros [->|[? ?]]; auto.
           ++ intros [[H1|H1] [H2|H2]]; auto; try lia;
                try (specialize (Fa _ H1)); try (specialize (Fb _ H2)); lia.
      * destruct (y <? x) eqn:E2.
        -- destruct (IHb Hb') as [S1 S2]. split; [assumption|]. intros z. rewrite S2. cbn [In]. split.
           ++ tauto.
           ++ intros [[H1|H1] [H2|H2]]; auto; try lia;
                try (specialize (Fa _ H1)); try (specialize (Fb _ H2)); lia.
        -- destruct (IHa (y :: b) Ha' Hb) as [S1 S2]. split; [assumption|]. intros z. rewrite S2. cbn [In]. split.
           ++ tauto.
           ++ intros [[H1|H1] [H2|H2]]; auto; try lia;
                try (specialize (Fa _ H1)); try (specialize (Fb _ H2)); lia.
Qed.

Lemma asc_unique a : forall b, ascending a -> ascending b -> (forall x, In x a <-> In x b) -> a = b.
Proof.
  induction a as [|x a IH]; intros [|y b] Ha Hb H.
  - reflexivity.
  - exfalso. apply (H y). now left.
  - exfalso. apply (H x). now left.
  - pose proof (asc_inv _ _ Ha) as [Ha' Fa]. pose proof (asc_inv _ _ Hb) as [Hb' Fb].
    rewrite Forall_forall in Fa, Fb.
    assert (x = y).
    { destruct (proj1 (H x) (or_introl eq_refl)) as [->|Hx]; [reflexivity|].
      destruct (proj2 (H y) (or_introl eq_refl)) as [->|Hy]; [reflexivity|].
      specialize (Fa _ Hy). specialize (Fb _ Hx). lia. }
    subst y. f_equal. apply IH; [assumption..|]. intros z. split; intros Hz.
    + destruct (proj1 (H z) (or_intror Hz)) as [->|]; [|assumption]. specialize (Fa _ Hz). lia.
    + destruct (proj2 (H z) (or_intror Hz)) as [->|]; [|assumption]. specialize (Fb _ Hz). lia.
Qed.

Lemma gather_spec {A} polls (v1 v2 : A) : forall f1 f2 next, f1 && f2 = false ->
  (gather polls v1 v2 f1 f2 next = next ++ (if f1 then [] else [v1]) ++ (if f2 then [] else [v2])) \/
  (f1 = false /\ f2 = false /\ gather polls v1 v2 f1 f2 next = next ++ [v2; v1]).
Proof.
  induction polls as [|[p1 p2] polls IH]; intros f1 f2 next Hf.
  - left. cbn [gather]. destruct f1, f2; cbn in *; try discriminate; rewrite <- ?app_assoc; reflexivity.
  - cbn [gather].
    destruct f1, f2, p1, p2; cbn [negb andb] in *; try discriminate;
      try (left; rewrite <- ?app_assoc; reflexivity).
    + destruct (IH true false next eq_refl) as [->|(X & _)]; [now left|discriminate].
    + destruct (IH true false next eq_refl) as [->|(X & _)]; [now left|discriminate].
    + destruct (IH false true next eq_refl) as [->|(_ & X & _)]; [now left|discriminate].
    + destruct (IH false true next eq_refl) as [->|(_ & X & _)]; [now left|discriminate].
    + destruct (IH true false (next ++ [v1]) eq_refl) as [->|(X & _)]; [|discriminate].
      left. cbn [app]. rewrite <- app_assoc. reflexivity.
    + destruct (IH false true (next ++ [v2]) eq_refl) as [->|(_ & X & _)]; [|discriminate].
      right. split; [reflexivity|]. split; [reflexivity|]. cbn [app]. rewrite <- app_assoc. reflexivity.
    + destruct (IH false false next eq_refl) as [->|(_ & _ & ->)]; [now left|]. right. auto.
Qed.

(* the intersection of at least one list *)
Definition exact (ts : list (list Z)) (r : list Z) : Prop :=
  ascending r /\ (forall x, In x r <-> ts <> [] /\ Forall (In x) ts).

Lemma exact_pair a b : ascending a -> ascending b -> exact [a; b] (order_intersect a b).
Proof.
  intros Ha Hb. destruct (oi_spec a b Ha Hb) as [S1 S2]. split; [assumption|].
  intros x. rewrite S2. split.
  - intros [H1 H2]. split; [congruence|]. repeat constructor; assumption.
  - intros [_ H]. inversion H; subst. inversion H3; subst. auto.
Qed.

Lemma exact_app ts us a b : ts <> [] -> us <> [] -> exact ts a -> exact us b ->
  exact (ts ++ us) (order_intersect a b).
Proof.
  intros Ht Hu [A1 A2] [B1 B2]. destruct (oi_spec a b A1 B1) as [S1 S2]. split; [assumption|].
  intros x. rewrite S2, A2, B2, Forall_app. split; [|tauto].
  intros [[_ H1] [_ H2]]. split; [|auto]. destruct ts; [congruence|discriminate].
Qed.

Lemma exact_perm ts us r : Permutation ts us -> exact ts r -> exact us r.
Proof.
  intros P [A B]. split; [assumption|]. intros x. rewrite B. split; intros [H1 H2]; split.
  - intros ->. apply Permutation_sym, Permutation_nil in P. contradiction.
  - eapply Permutation_Forall; eassumption.
  - intros ->. apply Permutation_nil in P. contradiction.
  - eapply Permutation_Forall; [apply Permutation_sym|]; eassumption.
Qed.

Lemma Forall_half {A} (P : A -> Prop) n l : Forall P l -> Forall P (firstn n l) /\ Forall P (skipn n l).
Proof. intros H. rewrite <- (firstn_skipn n l) in H. now apply Forall_app in H. Qed.

Lemma intersect_ok o : forall fuel path ts, (length ts < fuel)%nat -> Forall ascending ts ->
  exists r, intersect_fuel fuel o path ts = Some r /\ exact ts r.
Proof.
  induction fuel as [|fuel IH]; intros path ts Hf Hts; [lia|].
  destruct ts as [|a [|b [|c ts]]].
  - exists []. split; [reflexivity|]. split; [constructor|]. cbn. intros x. split; [tauto|]. intros [H _]. congruence.
  - exists a. split; [reflexivity|]. inversion Hts; subst. split; [assumption|]. intros x. split.
    + intros H. split; [congruence|]. constructor; [assumption|constructor].
    + intros [_ H]. now inversion H.
  - exists (order_intersect a b). split; [reflexivity|]. inversion Hts; subst. inversion H2; subst. now apply exact_pair.
  - set (l := a :: b :: c :: ts) in *. assert (Hlen: (3 <= length l)%nat) by (unfold l; cbn [length]; lia).
    assert (Hne: l <> []) by (unfold l; congruence).
    assert (E: intersect_fuel (S fuel) o path l =
      if Nat.odd (length l) then
        match intersect_fuel fuel o (false :: path) (removelast l) with
        | Some r => Some (order_intersect r (last l []))
        | None => None
        end
      else
        match intersect_fuel fuel o (false :: path) (firstn (Nat.div2 (length l)) l),
              intersect_fuel fuel o (true :: path) (skipn (Nat.div2 (length l)) l) with
        | Some v1, Some v2 =>
            intersect_fuel fuel o (true :: false :: path) (gather (o path) v1 v2 false false [])
        | _, _ => None
        end) by reflexivity.
    rewrite E. clear E. clearbody l. clear a b c ts.
    destruct (Nat.odd (length l)).
    + pose proof (app_removelast_last [] Hne) as Sp.
      assert (L: length l = S (length (removelast l))).
      { rewrite Sp at 1. rewrite app_length. cbn [length]. lia. }
      assert (F: Forall ascending (removelast l) /\ ascending (last l [])).
      { rewrite Sp in Hts. apply Forall_app in Hts as [F1 F2]. split; [assumption|now inversion F2]. }
      destruct F as [F1 F2].
      destruct (IH (false :: path) (removelast l) ltac:(lia) F1) as (r & -> & X).
      eexists; split; [reflexivity|]. rewrite Sp. apply exact_app; [|congruence|assumption|].
      * intros E. rewrite E in L. cbn in L. lia.
      * rewrite <- Sp. split; [assumption|]. intros x. split.
        -- intros H. split; [congruence|]. constructor; [assumption|constructor].
        -- intros [_ H]. now inversion H.
    + set (k := Nat.div2 (length l)). assert (Hk: (1 <= k < length l)%nat).
      { unfold k. pose proof (Nat.div2_div (length l)). pose proof (Nat.div_mod (length l) 2 ltac:(lia)).
        pose proof (Nat.mod_upper_bound (length l) 2 ltac:(lia)). lia. }
      destruct (Forall_half ascending k l Hts) as [F1 F2].
      destruct (IH (false :: path) (firstn k l)) as (v1 & -> & X1); [rewrite firstn_length; lia|assumption|].
      destruct (IH (true :: path) (skipn k l)) as (v2 & -> & X2); [rewrite skipn_length; lia|assumption|].
      assert (N1: firstn k l <> []). { intros E. apply (f_equal (@length _)) in E. rewrite firstn_length in E. cbn in E. lia. }
      assert (N2: skipn k l <> []). { intros E. apply (f_equal (@length _)) in E. rewrite skipn_length in E. cbn in E. lia. }
      assert (Hl: l = firstn k l ++ skipn k l) by (symmetry; apply firstn_skipn).
      assert (Hfu: exists fu, fuel = S fu) by (destruct fuel; [lia|eauto]). destruct Hfu as (fu & ->).
      destruct (gather_spec (o path) v1 v2 false false [] eq_refl) as [->|(_ & _ & ->)]; cbn [app].
      * exists (order_intersect v1 v2). split; [reflexivity|]. rewrite Hl. now apply exact_app.
      * exists (order_intersect v2 v1). split; [reflexivity|].
        apply (exact_perm (skipn k l ++ firstn k l)).
        -- rewrite Hl at 3. apply Permutation_app_comm.
        -- now apply exact_app.
Qed.

Theorem intersect_exact o ts : Forall ascending ts ->
  exists r, intersect_time_series_id_vec o ts = Some r /\ ascending r /\
    (forall x, In x r <-> ts <> [] /\ Forall (In x) ts).
Proof. intros H. apply intersect_ok; [lia|assumption]. Qed.

Theorem intersect_timing o o' ts : Forall ascending ts ->
  intersect_time_series_id_vec o ts = intersect_time_series_id_vec o' ts.
Proof.
  intros H. destruct (intersect_exact o ts H) as (r & -> & A & B).
  destruct (intersect_exact o' ts H) as (r' & -> & A' & B'). f_equal.
  apply asc_unique; [assumption..|]. intros x. rewrite B, B'. reflexivity.
Qed.
