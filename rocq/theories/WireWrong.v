(* What every message reader leaves when it refuses a body. *)
From Coq Require Import ZifyBool ZifyNat.
From Verif Require Import Rust Proto Stream WireSpec WireProofs WireMsgs.

Lemma no_number_iff b : no_number b <-> read_varint64 b = None.
Proof.
  split.
  - intros N. destruct (read_varint64 b) as [[z rest]|] eqn:E; [|reflexivity]. apply read_number in E as (l & E & H). now destruct (N l rest z).
  - intros E l rest z -> H. assert (Q: read_varint64 (l ++ rest) = Some (z, rest)) by (apply read_number; eauto). congruence.
Qed.
Lemma no_tag_iff b : no_tag b <-> read_tag b = None.
Proof.
  split.
  - intros N. destruct (read_tag b) as [[[n wt] rest]|] eqn:E; [|reflexivity]. apply read_tag_iff in E as (t & E & H). now destruct (N t rest n wt).
  - intros E t rest n wt -> H. assert (Q: read_tag (t ++ rest) = Some (n, wt, rest)) by (apply read_tag_iff; eauto). congruence.
Qed.
Lemma no_value_iff {A B} (x : A * option bytes) (C : B -> fval) (F : B -> A) d short n wt b :
  (forall t rest, x = (t, Some rest) <-> exists p z, b = p ++ rest /\ value_in d short n wt p rest (C z) /\ t = F z) ->
  (forall rest p v, value_in d short n wt p rest v -> exists z, v = C z) -> (no_value d short n wt b <-> snd x = None).
Proof.
  intros H1 H2. destruct x as [a [rest|]]; cbn [snd]; split; try congruence.
  - intros N. destruct (proj1 (H1 a rest) eq_refl) as (p & z & E & V & _). now destruct (N p rest (C z)).
  - intros _ p rest v E V. destruct (H2 rest p v V) as (z & ->). assert (Q: (a, None) = (F z, Some rest)) by (apply H1; eauto). congruence.
Qed.
Lemma read_varint32_none b : read_varint32 b = None <-> read_varint64 b = None.
Proof. unfold read_varint32. destruct (read_varint64 b) as [[z r]|]; [split; discriminate|reflexivity]. Qed.

(* by kind *)
Lemma wrong_small d short n wt b vs : (forall k, kind_of d n = Some k -> sized k = false) ->
  (wrong_value d short n wt b vs <-> no_value d short n wt b /\ vs = []).
Proof.
  intros K. split.
  - intros H. inversion H; subst; auto;
    repeat match goal with
    | H : _ \/ _ |- _ => destruct H as [H|H]
    | H : kind_of d n = Some _ |- _ => specialize (K _ H); discriminate
    end; auto.
  - intros [H ->]. apply wrong_plain; auto.
Qed.
Lemma wrong_blob d short n wt b vs : kind_of d n = Some KText \/ kind_of d n = Some KData ->
  (wrong_value d short n wt b vs <-> no_value d short n wt b /\ ((wt <> 2 \/ no_number b) /\ vs = [] \/ wt = 2 /\ ~ no_number b /\ vs = [VBytes []])).
Proof.
  intros K. split.
  - intros H. inversion H; subst; try (destruct K; congruence).
    + split; [assumption|]. left. destruct H1 as [W|S]; [auto|]. destruct K as [K|K]; specialize (S _ K); discriminate.
    + split; [|auto]. intros p rest v E V. destruct K as [K|K];
      [apply value_text_iff in V as (_ & x & (l & len & -> & Hl & _) & _); [|assumption]|apply value_data_iff in V as (_ & x & (l & len & -> & Hl & _) & _); [|assumption]];
      subst b; (apply (H1 l (x ++ rest) len); [now rewrite app_assoc|assumption]).
    + split; [assumption|]. right. split; [reflexivity|]. split; [|reflexivity]. intros N. now apply (N l b0 len).
  - intros [N [[[W|Q] ->]|(-> & Q & ->)]].
    + apply wrong_plain; auto.
    + destruct (Z.eq_dec wt 2) as [->|W]; [now apply wrong_bytes_length|apply wrong_plain; auto].
    + rewrite no_number_iff in Q. destruct (read_varint64 b) as [[z rest]|] eqn:E; [|congruence]. apply read_number in E as (l & -> & H). now apply wrong_bytes with z.
Qed.
Lemma wrong_message d short n wt b vs d' : kind_of d n = Some (KMsg d') ->
  (wrong_value d short n wt b vs <->
    wt <> 2 /\ vs = [] \/
    wt = 2 /\ exists fs, vs = [VMsg fs] /\
      (no_number b /\ fs = [] \/
       exists l len b', b = l ++ b' /\ number_in l len /\
         (Z.of_nat (length b') + short < len /\ fs = [] \/
          exists body rest, b' = body ++ rest /\ extent short len body rest /\ wrong_in d' (len - Z.of_nat (length body)) body fs))).
Proof.
  intros K. split.
  - intros H. inversion H; subst; try (match goal with Q : _ \/ _ |- _ => destruct Q end; congruence); try congruence.
    + destruct H1 as [W|S]; [auto|]. specialize (S _ K). discriminate.
    + right. split; [reflexivity|]. exists []. auto.
    + right. split; [reflexivity|]. exists []. split; [reflexivity|]. right. exists l, len, b0. auto.
    + right. split; [reflexivity|]. assert (d'0 = d') as -> by congruence. exists fs. split; [reflexivity|]. right. exists l, len, (body ++ rest). split; [reflexivity|]. split; [assumption|].
      right. exists body, rest. auto.
  - intros [[W ->]|(-> & fs & -> & [[N ->]|(l & len & b' & -> & Hl & [[L ->]|(body & rest & -> & P & W)])])].
    + apply wrong_plain; [|auto]. intros p rest v E V. apply (value_msg_iff _ _ _ _ _ _ _ _ K) in V as (-> & _). now destruct W.
    + now apply wrong_msg_length with d'.
    + now apply wrong_msg_long with d' len.
    + now apply wrong_msg with d' len.
Qed.
Lemma merge_message_none {A} (r : reader A) short b new a : 0 <= short ->
  (merge_message r short b new = (a, None) <->
    no_number b /\ a = new \/
    exists l len b', b = l ++ b' /\ number_in l len /\
      (Z.of_nat (length b') + short < len /\ a = new \/
       exists body rest, b' = body ++ rest /\ extent short len body rest /\ r (len - Z.of_nat (length body)) body new = (a, false))).
Proof.
  intros Hs. rewrite no_number_iff. unfold merge_message. destruct (read_varint64 b) as [[len b1]|] eqn:E.
  2: { split; [intros Q; left; split; congruence|]. intros [[_ ->]|(l & len & b' & -> & Hl & _)]; [reflexivity|].
       assert (Q: read_varint64 (l ++ b') = Some (len, b')) by (apply read_number; eauto). congruence. }
  apply read_number in E as (l & -> & Hl).
  assert (H0: 0 <= len < 2 ^ 64) by (destruct Hl as (_ & _ & ->); apply Z.mod_pos_bound; lia).
  assert (U: forall l' len' b', l ++ b1 = l' ++ b' -> number_in l' len' -> len' = len /\ b' = b1).
  { intros l' len' b' E' H'. assert (Q1: read_varint64 (l ++ b1) = Some (len, b1)) by (apply read_number; eauto).
    assert (Q2: read_varint64 (l ++ b1) = Some (len', b')) by (rewrite E'; apply read_number; eauto). split; congruence. }
  destruct (Z.ltb_spec (Z.of_nat (length b1) + short) len) as [H|H].
  - split.
    + intros Q. right. exists l, len, b1. split; [reflexivity|]. split; [assumption|]. left. split; [assumption|congruence].
    + intros [[Q _]|(l' & len' & b' & E' & Hl' & D)]; [discriminate|]. destruct (U _ _ _ E' Hl') as [-> ->].
      destruct D as [[_ ->]|(body & rest & -> & [P|[-> P]] & _)]; [reflexivity| |]; rewrite app_length in H; cbn [length] in H; lia.
  - set (n := Z.to_nat (Z.min len (Z.of_nat (length b1)))).
    assert (X: forall body rest, b1 = body ++ rest -> extent short len body rest -> body = firstn n b1 /\ Z.max 0 (len - Z.of_nat (length b1)) = len - Z.of_nat (length body)).
    { intros body rest E P. assert (Lb: length b1 = (length body + length rest)%nat) by (now rewrite E, app_length).
      assert (En: n = length body) by (unfold n; rewrite Lb; destruct P as [P|[-> P]]; cbn [length]; lia).
      rewrite En, E at 1. rewrite firstn_app, Nat.sub_diag, firstn_all. cbn [firstn]. rewrite app_nil_r. split; [reflexivity|].
      destruct P as [P|[-> P]]; cbn [length] in Lb; lia. }
    assert (P0: extent short len (firstn n b1) (skipn n b1)).
    { assert (Ln: Z.of_nat (length (firstn n b1)) = Z.min len (Z.of_nat (length b1))) by (rewrite firstn_length; lia). unfold extent. rewrite Ln.
      destruct (Z.le_gt_cases len (Z.of_nat (length b1))) as [H1|H1]; [left; lia|right]. split; [|lia]. apply skipn_all2. lia. }
    destruct (X _ _ (eq_sym (firstn_skipn n b1)) P0) as [_ X0]. rewrite X0. split.
    + destruct (r _ (firstn n b1) new) as [a' ok] eqn:E. destruct ok; [discriminate|]. intros Q. assert (a' = a) as -> by congruence.
      right. exists l, len, b1. split; [reflexivity|]. split; [assumption|]. right. exists (firstn n b1), (skipn n b1). rewrite firstn_skipn. auto.
    + intros [[Q _]|(l' & len' & b' & E' & Hl' & D)]; [discriminate|]. destruct (U _ _ _ E' Hl') as [-> ->].
      destruct D as [[L _]|(body & rest & Eb & P & W)]; [lia|]. destruct (X body rest Eb P) as [<- _]. now rewrite W.
Qed.

(* [r] leaves so much of what is no message described by d *)
Definition wrongs_as {M} (r : reader M) (d : desc) (of : list (Z * fval) -> M) : Prop :=
  forall short b fs0 m, 0 <= short -> Forall is_byte b ->
  (r short b (of fs0) = (m, false) <-> exists fs, wrong_in d short b fs /\ m = of (fs0 ++ fs)).
Definition wrong_field_as {M} (field : Z -> Z -> Z -> bytes -> M -> M * option bytes) (d : desc) (of : list (Z * fval) -> M) : Prop :=
  forall short n wt b fs0 m, 0 <= short -> Forall is_byte b ->
  (field short n wt b (of fs0) = (m, None) <-> exists vs, wrong_value d short n wt b vs /\ m = of (fs0 ++ map (fun v => (n, v)) vs)).
Lemma wrongs_field {M} field d (of : list (Z * fval) -> M) : field_as field d of -> wrong_field_as field d of -> wrongs_as (reads field) d of.
Proof.
  intros F G short b fs0 m Hs Hb. unfold reads. assert (L: (length b < S (length b))%nat) by lia. revert L.
  generalize (S (length b)) as n. intros n. revert b fs0 m Hb. induction n as [|n IH]; intros b fs0 m Hb L; [lia|].
  destruct b as [|x b0].
  { cbn [fields]. split; [discriminate|]. intros (fs & P & _). inversion P as [d' s' b' N|d' s' t num wt b' vs Ht _ Ed Es Eb|d' s' t num wt p v rest fs' Ht _ _ Ed Es Eb]; subst.
    - now destruct N.
    - apply app_eq_nil in Eb as [-> _]. now apply tag_in_ne in Ht.
    - apply app_eq_nil in Eb as [-> _]. now apply tag_in_ne in Ht. }
  rewrite fields_S by discriminate. assert (N: x :: b0 <> []) by discriminate. generalize dependent (x :: b0). clear x b0. intros b Hb L N. split.
  - destruct (read_tag b) as [[[num wt] b1]|] eqn:E.
    2: { intros Q. exists []. rewrite app_nil_r. split; [|congruence]. apply wrong_tag; [assumption|now apply no_tag_iff]. }
    apply read_tag_iff in E as (t & E & Ht). subst b.
    assert (Hb1: Forall is_byte b1) by (now apply Forall_app in Hb). assert (L1: (length b1 < n)%nat).
    { rewrite app_length in L. apply tag_in_ne in Ht. destruct t; [congruence|cbn [length] in L; lia]. }
    destruct (field short num wt b1 (of fs0)) as [m' [b2|]] eqn:E2.
    + apply F in E2 as (p & v & E2 & V & ->); [|assumption..]. subst b1.
      intros H. apply IH in H as (fs & P & ->); [|now apply Forall_app in Hb1|rewrite app_length in L1; lia].
      exists ((num, v) :: fs). split; [exact (wrong_later d short t num wt p v b2 fs Ht V P)|]. now rewrite <- app_assoc.
    + apply G in E2 as (vs & V & ->); [|assumption..]. intros Q. exists (map (fun v => (num, v)) vs). split; [|congruence]. now apply wrong_here with wt.
  - intros (fs & P & ->). inversion P as [d' s' b' N' Nt Ed Es Eb|d' s' t num wt b' vs Ht V Ed Es Eb Ef|d' s' t num wt p v rest fs' Ht V P' Ed Es Eb Ef].
    + subst. apply no_tag_iff in Nt. now rewrite Nt, app_nil_r.
    + subst d' s' fs b. assert (Q: read_tag (t ++ b') = Some (num, wt, b')) by (apply read_tag_iff; exists t; auto). rewrite Q.
      assert (Q2: field short num wt b' (of fs0) = (of (fs0 ++ map (fun v => (num, v)) vs), None)) by (apply G; [assumption|now apply Forall_app in Hb|eauto]).
      now rewrite Q2.
    + subst d' s' fs b. assert (Q: read_tag (t ++ p ++ rest) = Some (num, wt, p ++ rest)) by (apply read_tag_iff; exists t; auto). rewrite Q.
      assert (Hb1: Forall is_byte (p ++ rest)) by (now apply Forall_app in Hb).
      assert (Q2: field short num wt (p ++ rest) (of fs0) = (of (fs0 ++ [(num, v)]), Some rest)) by (apply F; [assumption..|]; exists p, v; auto).
      rewrite Q2. apply IH; [now apply Forall_app in Hb1| |].
      { rewrite !app_length in L. apply tag_in_ne in Ht. destruct t; [congruence|cbn [length] in L; lia]. }
      exists fs'. split; [assumption|]. now rewrite <- app_assoc.
Qed.

(* one field, by kind *)
Lemma small_comp {A B M} (x : A * option bytes) (f : A -> M) (C : B -> fval) (F : B -> A) d short n wt b (of : list (Z * fval) -> M) fs0 m :
  (forall k, kind_of d n = Some k -> sized k = false) ->
  (forall t rest, x = (t, Some rest) <-> exists p z, b = p ++ rest /\ value_in d short n wt p rest (C z) /\ t = F z) ->
  (forall rest p v, value_in d short n wt p rest v -> exists z, v = C z) -> (snd x = None -> f (fst x) = of fs0) ->
  ((let '(a, r) := x in (f a, r)) = (m, None) <-> exists vs, wrong_value d short n wt b vs /\ m = of (fs0 ++ map (fun v => (n, v)) vs)).
Proof.
  intros K H1 H2 H3. pose proof (no_value_iff x C F d short n wt b H1 H2) as N. destruct x as [a r]. cbn [fst snd] in *. split.
  - intros Q. assert (r = None) as -> by congruence. exists []. cbn [map]. rewrite app_nil_r, <- H3 by reflexivity. split; [|congruence]. apply wrong_small; [assumption|]. split; [now apply N|reflexivity].
  - intros (vs & V & ->). apply wrong_small in V as [V ->]; [|assumption]. apply N in V as ->. cbn [map]. rewrite app_nil_r, <- H3; reflexivity.
Qed.
Lemma blob_comp {M} (x : bytes * option bytes) (f : bytes -> M) old d short n wt b (of : list (Z * fval) -> M) fs0 m :
  kind_of d n = Some KText \/ kind_of d n = Some KData ->
  (forall t rest, x = (t, Some rest) <-> exists p z, b = p ++ rest /\ value_in d short n wt p rest (VBytes z) /\ t = z) ->
  (forall rest p v, value_in d short n wt p rest v -> exists z, v = VBytes z) ->
  (snd x = None -> fst x = if (wt =? 2) then match read_varint64 b with None => old | Some _ => [] end else old) ->
  f old = of fs0 -> f [] = of (fs0 ++ [(n, VBytes [])]) ->
  ((let '(a, r) := x in (f a, r)) = (m, None) <-> exists vs, wrong_value d short n wt b vs /\ m = of (fs0 ++ map (fun v => (n, v)) vs)).
Proof.
  intros K H1 H2 H3 Ho He. pose proof (no_value_iff x VBytes (fun z => z) d short n wt b H1 H2) as N. destruct x as [a r]. cbn [fst snd] in *. split.
  - intros Q. assert (r = None) as -> by congruence. assert (V: no_value d short n wt b) by (now apply N). rewrite (H3 eq_refl) in Q.
    destruct (Z.eqb_spec wt 2) as [->|W]; [destruct (read_varint64 b) as [y|] eqn:E|].
    + exists [VBytes []]. split; [|cbn [map]; congruence]. apply wrong_blob; [assumption|]. split; [assumption|]. right. split; [reflexivity|]. split; [|reflexivity]. rewrite no_number_iff. congruence.
    + exists []. cbn [map]. rewrite app_nil_r. split; [|congruence]. apply wrong_blob; [assumption|]. split; [assumption|]. left. split; [right; now apply no_number_iff|reflexivity].
    + exists []. cbn [map]. rewrite app_nil_r. split; [|congruence]. apply wrong_blob; [assumption|]. split; [assumption|]. auto.
  - intros (vs & V & ->). apply wrong_blob in V as [V D]; [|assumption]. apply N in V as ->. rewrite (H3 eq_refl).
    destruct D as [[[W| Q] ->]|(-> & Q & ->)]; cbn [map]; rewrite ?app_nil_r.
    + destruct (Z.eqb_spec wt 2); [contradiction|]. congruence.
    + apply no_number_iff in Q as ->. destruct (wt =? 2); congruence.
    + rewrite no_number_iff in Q. destruct (read_varint64 b); [|congruence]. change (2 =? 2) with true. cbn iota. congruence.
Qed.
Lemma msg_comp {A M} (r : reader A) (d' : desc) (of' : list (Z * fval) -> A) new {T} (put : A -> T) (old : T) (f : T -> M) d short n wt b (of : list (Z * fval) -> M) fs0 m :
  wrongs_as r d' of' -> new = of' [] -> kind_of d n = Some (KMsg d') -> 0 <= short -> Forall is_byte b ->
  f old = of fs0 -> (forall g, f (put (of' g)) = of (fs0 ++ [(n, VMsg g)])) ->
  ((let '(a, rest) := (if wt =? WLen then let '(a, rest) := merge_message r short b new in (put a, rest) else (old, None)) in (f a, rest)) = (m, None) <->
   exists vs, wrong_value d short n wt b vs /\ m = of (fs0 ++ map (fun v => (n, v)) vs)).
Proof.
  intros R N0 K Hs Hb Ho Hp. destruct (Z.eqb_spec wt WLen) as [->|W].
  - assert (X: forall a, merge_message r short b new = (a, None) <-> exists fs, wrong_value d short n 2 b [VMsg fs] /\ a = of' fs).
    { intros a. rewrite (merge_message_none r short b new a Hs). split.
      - intros [[N ->]|(l & len & b' & -> & Hl & D)].
        + exists []. split; [|assumption]. apply (wrong_message _ _ _ _ _ _ d' K). right. split; [reflexivity|]. exists []. auto.
        + destruct D as [[L ->]|(body & rest & -> & P & E)].
          * exists []. split; [|assumption]. apply (wrong_message _ _ _ _ _ _ d' K). right. split; [reflexivity|]. exists []. split; [reflexivity|]. right. exists l, len, b'. auto.
          * assert (Hb': Forall is_byte body) by (apply Forall_app in Hb as [_ Hb]; now apply Forall_app in Hb).
            rewrite N0 in E. apply R in E as (fs & E & ->); [|destruct P; lia|assumption]. exists fs. split; [|reflexivity].
            apply (wrong_message _ _ _ _ _ _ d' K). right. split; [reflexivity|]. exists fs. split; [reflexivity|]. right. exists l, len, (body ++ rest).
            split; [reflexivity|]. split; [assumption|]. right. exists body, rest. auto.
      - intros (fs & V & ->). apply (wrong_message _ _ _ _ _ _ d' K) in V as [[Q _]|(_ & fs' & E & D)]; [now destruct Q|]. assert (fs' = fs) as -> by congruence.
        destruct D as [[N ->]|(l & len & b' & -> & Hl & D)]; [auto|]. right. exists l, len, b'. split; [reflexivity|]. split; [assumption|].
        destruct D as [[L ->]|(body & rest & -> & P & W)]; [auto|]. right. exists body, rest. split; [reflexivity|]. split; [assumption|].
        assert (Hb': Forall is_byte body) by (apply Forall_app in Hb as [_ Hb]; now apply Forall_app in Hb).
        rewrite N0. apply R; [destruct P; lia|assumption|]. exists fs. auto. }
    destruct (merge_message r short b new) as [a [rest|]].
    + split; [discriminate|]. intros (vs & V & _). pose proof V as V'. apply (wrong_message _ _ _ _ _ _ d' K) in V' as [[Q _]|(_ & fs & -> & _)]; [now destruct Q|].
      assert (Q: (a, Some rest) = (of' fs, None)) by (apply X; eauto). congruence.
    + split.
      * intros Q. destruct (proj1 (X a) eq_refl) as (fs & V & ->). exists [VMsg fs]. split; [assumption|]. cbn [map]. rewrite <- Hp. congruence.
      * intros (vs & V & ->). pose proof V as V'. apply (wrong_message _ _ _ _ _ _ d' K) in V' as [[Q _]|(_ & fs & -> & _)]; [now destruct Q|].
        assert (Q: (a, @None bytes) = (of' fs, None)) by (apply X; eauto). cbn [map]. rewrite <- Hp. congruence.
  - split.
    + intros Q. exists []. cbn [map]. rewrite app_nil_r. split; [|congruence]. apply (wrong_message _ _ _ _ _ _ d' K). auto.
    + intros (vs & V & ->). apply (wrong_message _ _ _ _ _ _ d' K) in V as [[_ ->]|(-> & _)]; [|now destruct W]. cbn [map]. rewrite app_nil_r. congruence.
Qed.
Lemma read_string_none wt b old : snd (read_string wt b old) = None -> fst (read_string wt b old) = if wt =? 2 then match read_varint64 b with None => old | Some _ => [] end else old.
Proof.
  unfold read_string, read_varint32. change WLen with 2. destruct (wt =? 2); [|reflexivity]. destruct (read_varint64 b) as [[z b']|]; [|reflexivity].
  destruct (read_bytes _ b') as [[x b2]|]; [|reflexivity]. destruct (utf8 x); [discriminate|reflexivity].
Qed.
Lemma read_data_none wt b old : snd (read_data wt b old) = None -> fst (read_data wt b old) = if wt =? 2 then match read_varint64 b with None => old | Some _ => [] end else old.
Proof.
  unfold read_data, read_varint32. change WLen with 2. destruct (wt =? 2); [|reflexivity]. destruct (read_varint64 b) as [[z b']|]; [|reflexivity].
  destruct (read_bytes _ b') as [[x b2]|]; [discriminate|reflexivity].
Qed.
Lemma read_int64_none wt b old : snd (read_int64 wt b old) = None -> fst (read_int64 wt b old) = old.
Proof. unfold read_int64. destruct (wt =? WVarint); [|reflexivity]. destruct (read_varint64 b) as [[z b']|]; [discriminate|reflexivity]. Qed.
Lemma read_double_none wt b old : snd (read_double wt b old) = None -> fst (read_double wt b old) = old.
Proof. unfold read_double. destruct (wt =? WFixed64); [|reflexivity]. destruct (read_fixed 8 b) as [[z b']|]; [discriminate|reflexivity]. Qed.
Lemma read_unknown_none n wt b u : snd (read_unknown_or_skip_group n wt b u) = None -> fst (read_unknown_or_skip_group n wt b u) = u.
Proof. unfold read_unknown_or_skip_group. destruct (wt =? WStartGroup); [reflexivity|]. destruct (read_unknown wt b) as [[z b']|]; [discriminate|reflexivity]. Qed.
Lemma enum_wrong {M T} (from : Z -> option T) (m0 : M) (set : T -> M) (keep : Z -> M) d short n wt b (of : list (Z * fval) -> M) fs0 m :
  kind_of d n = Some KNum -> m0 = of fs0 ->
  ((if wt =? WVarint then match read_int32 b with
      | None => (m0, None)
      | Some (z, b') => match from z with Some t => (set t, Some b') | None => (keep z, Some b') end end
    else (m0, None)) = (m, @None bytes) <->
   exists vs, wrong_value d short n wt b vs /\ m = of (fs0 ++ map (fun v => (n, v)) vs)).
Proof.
  intros K ->. assert (S0: forall k, kind_of d n = Some k -> sized k = false) by (intros k Hk; assert (k = KNum) as -> by congruence; reflexivity).
  assert (N: no_value d short n wt b <-> (if wt =? WVarint then read_int32 b = None else True)).
  { rewrite (no_value_iff (read_int64 wt b 0) VNum (wraps 64) d short n wt b); [|intros t rest; now apply int64_as|intros rest; now apply form_num].
    unfold read_int64, read_int32, read_varint32. destruct (wt =? WVarint); [|cbn; tauto]. destruct (read_varint64 b) as [[z b']|]; [|cbn; tauto]. cbn [snd]. split; discriminate. }
  assert (X: (exists vs, wrong_value d short n wt b vs /\ m = of (fs0 ++ map (fun v => (n, v)) vs)) <-> no_value d short n wt b /\ m = of fs0).
  { split.
    - intros (vs & V & ->). apply wrong_small in V as [V ->]; [|assumption]. cbn [map]. rewrite app_nil_r. auto.
    - intros [V ->]. exists []. cbn [map]. rewrite app_nil_r. split; [|reflexivity]. apply wrong_small; auto. }
  rewrite X, N. destruct (wt =? WVarint); [|split; [intros Q; split; [exact I|congruence]|intros [_ ->]; reflexivity]].
  destruct (read_int32 b) as [[z b']|].
  - split; [destruct (from z); discriminate|]. intros [Q _]. discriminate.
  - split; [intros Q; split; congruence|]. intros [_ ->]. reflexivity.
Qed.
Lemma read_packed_none n : forall b ts u ts' u', (length b < n)%nat ->
  (read_packed n b ts u = ((ts', u'), false) <->
   exists p q zs, b = p ++ q /\ packed p zs /\ q <> [] /\ no_number q /\ (ts', u') = fold_left (fun a z => add_type (int32 z) (fst a) (snd a)) zs (ts, u)).
Proof.
  induction n as [|n IH]; intros b ts u ts' u' L; [lia|]. cbn [read_packed]. destruct b as [|x b0].
  { split; [discriminate|]. intros (p & q & zs & E & _ & N & _). symmetry in E. apply app_eq_nil in E as [_ ->]. now destruct N. }
  assert (Nb: x :: b0 <> []) by discriminate. set (b := x :: b0) in *. unfold read_int32, read_varint32. destruct (read_varint64 b) as [[z b']|] eqn:E.
  - pose proof E as E'. apply read_number in E' as (l & Eb & Hl). destruct (add_type (wraps 32 (z mod 2 ^ 32)) ts u) as [t1 u1] eqn:A.
    rewrite IH. 2: { rewrite Eb, app_length in L. apply number_ne in Hl. destruct l; [congruence|]. cbn [length] in L. lia. }
    split; intros (p & q & zs & E1 & P & N & Q & F).
    + exists (l ++ p), q, (z :: zs). split; [rewrite Eb, E1; now rewrite app_assoc|]. split; [now constructor|]. split; [assumption|]. split; [assumption|].
      cbn [fold_left fst snd]. unfold int32 at 2. now rewrite A.
    + destruct zs as [|z' zs].
      * inversion P; subst p. cbn [app] in E1. subst q. apply no_number_iff in Q. congruence.
      * inversion P as [|l' z1 b1 zs' Hl' P' Eb' Ez]; subst z1 zs' p. assert (Q': read_varint64 b = Some (z', b1 ++ q)) by (rewrite E1, <- app_assoc; apply read_number; eauto).
        rewrite E in Q'. assert (z' = z /\ b' = b1 ++ q) as [-> ->] by (split; congruence). exists b1, q, zs. split; [reflexivity|]. split; [assumption|]. split; [assumption|]. split; [assumption|].
        cbn [fold_left fst snd] in F. unfold int32 at 2 in F. now rewrite A in F.
  - split.
    + intros Q. exists [], b, []. split; [reflexivity|]. split; [constructor|]. split; [assumption|]. split; [now apply no_number_iff|]. cbn [fold_left]. congruence.
    + intros (p & q & zs & E1 & P & N & Q & F). destruct zs as [|z' zs].
      * cbn [fold_left] in F. congruence.
      * inversion P as [|l' z1 b1 zs' Hl' P' Eb' Ez]; subst z1 zs' p. assert (Q': read_varint64 b = Some (z', b1 ++ q)) by (rewrite E1, <- app_assoc; apply read_number; eauto). congruence.
Qed.

Ltac small := intros ? H; revert H; cbv; intros [=<-]; reflexivity.
Ltac wnum d of k := match goal with |- context [read_int64 ?a ?b ?c] => apply (small_comp (read_int64 a b c) _ VNum (wraps 64) d _ k) end;
  [small|intros t rest; now apply int64_as|intros rest; now apply form_num|intros H; now rewrite (read_int64_none _ _ _ H)].
Ltac wstr d of k := match goal with |- context [read_string ?a ?b ?c] => apply (blob_comp (read_string a b c) _ c d _ k) end;
  [left; reflexivity|intros t rest; now apply text_as|intros rest; now apply form_text|apply read_string_none|reflexivity|unfold of; more].
Ltac wrep d of k of' W := match goal with |- context [read_repeated ?r ?new ?sh ?wt ?b ?vs] =>
    unfold read_repeated; eapply (msg_comp r _ of' new (fun a => vs ++ [a]) vs _ d sh k wt b of) end;
  [exact W|reflexivity|reflexivity|assumption|assumption|reflexivity|intros g; unfold of; more].
Ltac wnone d of :=
  let K := fresh "K" in match goal with |- context [read_unknown_or_skip_group ?n ?wt ?b ?u] => assert (K: kind_of d n = None) by (apply kind_none; cbn [d map fst In]; intuition congruence);
    apply (small_comp (read_unknown_or_skip_group n wt b u) _ (fun v => v) (fun v => u ++ unk_of n v)) end;
  [intros k Hk; congruence|intros t rest; now apply unknown_as|eauto|intros H; now rewrite (read_unknown_none _ _ _ _ H)].

Theorem sample_wrongs : wrongs_as sample_read sample_desc sample_of.
Proof.
  apply (wrongs_field _ _ _ sample_fields). intros short n wt b fs0 m Hs Hb. unfold sample_field, sample_of at 1.
  destruct (Z.eqb_spec n 1) as [->|N1].
  { match goal with |- context [read_double ?a ?b ?c] => apply (small_comp (read_double a b c) _ V64 (fun z : Z => z)) end.
    - small.
    - intros t rest. now apply double_as.
    - intros rest. now apply form_64.
    - intros H. now rewrite (read_double_none _ _ _ H). }
  destruct (Z.eqb_spec n 2) as [->|N2]; [wnum sample_desc sample_of 2|]. wnone sample_desc sample_of.
Qed.
Theorem plabel_wrongs : wrongs_as plabel_read plabel_desc plabel_of.
Proof.
  apply (wrongs_field _ _ _ plabel_fields). intros short n wt b fs0 m Hs Hb. unfold plabel_field, plabel_of at 1.
  destruct (Z.eqb_spec n 1) as [->|N1]; [wstr plabel_desc plabel_of 1|].
  destruct (Z.eqb_spec n 2) as [->|N2]; [wstr plabel_desc plabel_of 2|]. wnone plabel_desc plabel_of.
Qed.
Theorem pseries_wrongs : wrongs_as pseries_read pseries_desc pseries_of.
Proof.
  apply (wrongs_field _ _ _ pseries_fields). intros short n wt b fs0 m Hs Hb. unfold pseries_field, pseries_of at 1.
  destruct (Z.eqb_spec n 1) as [->|N1]; [wrep pseries_desc pseries_of 1 plabel_of plabel_wrongs|].
  destruct (Z.eqb_spec n 2) as [->|N2]; [wrep pseries_desc pseries_of 2 sample_of sample_wrongs|]. wnone pseries_desc pseries_of.
Qed.

Theorem matcher_wrongs : wrongs_as matcher_read matcher_desc matcher_of.
Proof.
  apply (wrongs_field _ _ _ matcher_fields). intros short n wt b fs0 m Hs Hb. unfold matcher_field, matcher_of at 1.
  destruct (Z.eqb_spec n 1) as [->|N1]; [apply enum_wrong; reflexivity|].
  destruct (Z.eqb_spec n 2) as [->|N2]; [wstr matcher_desc matcher_of 2|].
  destruct (Z.eqb_spec n 3) as [->|N3]; [wstr matcher_desc matcher_of 3|]. wnone matcher_desc matcher_of.
Qed.
Theorem hints_wrongs : wrongs_as hints_read hints_desc hints_of.
Proof.
  apply (wrongs_field _ _ _ hints_fields). intros short n wt b fs0 m Hs Hb. unfold hints_field, hints_of at 1.
  destruct (Z.eqb_spec n 1) as [->|N1]; [wnum hints_desc hints_of 1|].
  destruct (Z.eqb_spec n 2) as [->|N2]; [wstr hints_desc hints_of 2|].
  destruct (Z.eqb_spec n 3) as [->|N3]; [wnum hints_desc hints_of 3|].
  destruct (Z.eqb_spec n 4) as [->|N4]; [wnum hints_desc hints_of 4|]. wnone hints_desc hints_of.
Qed.
Theorem pquery_wrongs : wrongs_as pquery_read pquery_desc pquery_of.
Proof.
  apply (wrongs_field _ _ _ pquery_fields). intros short n wt b fs0 m Hs Hb. unfold pquery_field, pquery_of at 1.
  destruct (Z.eqb_spec n 1) as [->|N1]; [wnum pquery_desc pquery_of 1|].
  destruct (Z.eqb_spec n 2) as [->|N2]; [wnum pquery_desc pquery_of 2|].
  destruct (Z.eqb_spec n 3) as [->|N3]; [wrep pquery_desc pquery_of 3 matcher_of matcher_wrongs|].
  destruct (Z.eqb_spec n 4) as [->|N4].
  { match goal with |- context [read_singular ?r ?new ?sh ?wt ?b ?o] => unfold read_singular; eapply (msg_comp r _ hints_of new Some o _ pquery_desc sh 4 wt b pquery_of) end;
      [exact hints_wrongs|reflexivity|reflexivity|assumption|assumption|reflexivity|]. intros g. unfold pquery_of. more. }
  wnone pquery_desc pquery_of.
Qed.
Lemma wrong_numbers d short n wt b vs : kind_of d n = Some KNums ->
  (wrong_value d short n wt b vs <->
    wt <> 2 /\ no_value d short n wt b /\ vs = [] \/
    wt = 2 /\ (no_number b /\ vs = [] \/
      exists l len b', b = l ++ b' /\ number_in l len /\
        (Z.of_nat (length b') + short < len /\ vs = [] \/
         exists p q rest zs, b' = (p ++ q) ++ rest /\ extent short len (p ++ q) rest /\ packed p zs /\ q <> [] /\ no_number q /\ vs = [VNums zs]))).
Proof.
  intros K. split.
  - intros H. inversion H; subst; try (match goal with Q : _ \/ _ |- _ => destruct Q end; congruence); try congruence.
    + destruct H1 as [W|S]; [auto|]. specialize (S _ K). discriminate.
    + right. split; [reflexivity|]. auto.
    + right. split; [reflexivity|]. right. exists l, len, b0. auto.
    + right. split; [reflexivity|]. right. exists l, len, ((p ++ q) ++ rest). split; [reflexivity|]. split; [assumption|]. right. exists p, q, rest, zs. auto 6.
  - intros [(W & N & ->)|(-> & [[N ->]|(l & len & b' & -> & Hl & [[L ->]|(p & q & rest & zs & -> & P & Z1 & Nq & Q & ->)])])].
    + apply wrong_plain; auto.
    + now apply wrong_nums_length.
    + now apply wrong_nums_long with len.
    + now apply wrong_nums with len.
Qed.
Theorem read_request_wrongs : wrongs_as read_request_read read_request_desc read_request_of.
Proof.
  apply (wrongs_field _ _ _ read_request_fields). intros short n wt b fs0 m Hs Hb. unfold read_request_field, read_request_of at 1.
  destruct (Z.eqb_spec n 1) as [->|N1]; [wrep read_request_desc read_request_of 1 pquery_of pquery_wrongs|].
  destruct (Z.eqb_spec n 2) as [->|N2]; [|wnone read_request_desc read_request_of].
  assert (K: kind_of read_request_desc 2 = Some KNums) by reflexivity.
  assert (V: forall zs ts u,
    (ts, u) = fold_left (fun a z => add_type (int32 z) (fst a) (snd a)) zs (map rtype_named (filter is_bit (map int32 (nums 2 fs0))), others read_request_desc [(2, is_bit)] fs0) ->
    mkReadReq (map pquery_of (msgs 1 fs0)) ts u = read_request_of (fs0 ++ [(2, VNums zs)])).
  { intros zs ts u E. rewrite types_run in E. assert (E4: others read_request_desc [(2, is_bit)] [(2, VNums zs)] = map (fun x => (2, x)) (stray is_bit (VNums zs))).
    { unfold others. cbn [flat_map fst snd read_request_desc kind_of find option_map Z.eqb Pos.eqb]. apply app_nil_r. }
    assert (E1: nums 2 [(2, VNums zs)] = zs) by (cbn; apply app_nil_r). change (msgs 1 (fs0 ++ [(2, VNums zs)])) with (msgs 1 (fs0 ++ [(2, VNums zs)])).
    unfold read_request_of. rewrite msgs_app, nums_app, others_app, E1, E4, !map_app, !filter_app, !map_app. change (msgs 1 [(2, VNums zs)]) with (@nil (list (Z * fval))). cbn [map]. rewrite app_nil_r. congruence. }
  destruct (Z.eqb_spec wt WLen) as [->|Nl].
  - set (r := fun (_ : Z) b '(ts, u) => read_packed (S (length b)) b ts u).
    set (old := (map rtype_named (filter is_bit (map int32 (nums 2 fs0))), others read_request_desc [(2, is_bit)] fs0)) in *.
    assert (X: forall a, merge_message r short b old = (a, None) <-> exists vs, wrong_value read_request_desc short 2 2 b vs /\
       mkReadReq (map pquery_of (msgs 1 fs0)) (fst a) (snd a) = read_request_of (fs0 ++ map (fun v => (2, v)) vs)).
    { assert (V0: forall a, mkReadReq (map pquery_of (msgs 1 fs0)) (fst a) (snd a) = read_request_of (fs0 ++ map (fun v => (2, v)) []) <-> a = old).
      { intros [ts u]. cbn [map fst snd]. rewrite app_nil_r. unfold old, read_request_of. split; congruence. }
      assert (V1: forall a zs, mkReadReq (map pquery_of (msgs 1 fs0)) (fst a) (snd a) = read_request_of (fs0 ++ map (fun v => (2, v)) [VNums zs]) <->
        a = fold_left (fun a z => add_type (int32 z) (fst a) (snd a)) zs old).
      { intros [ts u] zs. cbn [map fst snd]. destruct (fold_left _ zs old) as [ts1 u1] eqn:E. rewrite <- (V zs ts1 u1) by congruence. split; congruence. }
      intros a. rewrite (merge_message_none r short b old a Hs). split.
      - intros [[N Ea]|(l & len & b' & -> & Hl & D)].
        + exists []. rewrite V0. split; [|assumption]. apply (wrong_numbers _ _ _ _ _ _ K). right. auto.
        + destruct D as [[L Ea]|(body & rest & -> & P & E)].
          * exists []. rewrite V0. split; [|assumption]. apply (wrong_numbers _ _ _ _ _ _ K). right. split; [reflexivity|]. right. exists l, len, b'. auto.
          * destruct a as [ts u]. unfold r, old in E. apply read_packed_none in E as (p & q & zs & -> & Z1 & Nq & Q & E); [|lia].
            exists [VNums zs]. rewrite V1. split; [|assumption]. apply (wrong_numbers _ _ _ _ _ _ K). right. split; [reflexivity|]. right.
            exists l, len, ((p ++ q) ++ rest). split; [reflexivity|]. split; [assumption|]. right. exists p, q, rest, zs. auto 6.
      - intros (vs & W & Ea). apply (wrong_numbers _ _ _ _ _ _ K) in W as [[Q _]|[_ D]]; [now destruct Q|].
        destruct D as [[N ->]|(l & len & b' & -> & Hl & D)]; [left; split; [assumption|now apply V0]|]. right. exists l, len, b'. split; [reflexivity|]. split; [assumption|].
        destruct D as [[L ->]|(p & q & rest & zs & -> & P & Z1 & Nq & Q & ->)]; [left; split; [assumption|now apply V0]|]. right. exists (p ++ q), rest.
        split; [reflexivity|]. split; [assumption|]. apply V1 in Ea. destruct a as [ts u]. unfold r, old. apply read_packed_none; [lia|]. exists p, q, zs. auto 6. }
    fold r. change (map rtype_named (filter is_bit (map int32 (nums 2 fs0))), others read_request_desc [(2, is_bit)] fs0) with old.
    destruct (merge_message r short b old) as [[ts u] [rest|]].
    + split; [discriminate|]. intros (vs & W & Ea). exfalso. pose proof W as W'.
      assert (Y: exists a, mkReadReq (map pquery_of (msgs 1 fs0)) (fst a) (snd a) = read_request_of (fs0 ++ map (fun v => (2, v)) vs)).
      { apply (wrong_numbers _ _ _ _ _ _ K) in W' as [[Q _]|[_ D]]; [now destruct Q|].
        assert (Y: vs = [] \/ exists zs, vs = [VNums zs]) by (destruct D as [[_ ->]|(l & len & b' & _ & _ & [[_ ->]|(p & q & r0 & zs & _ & _ & _ & _ & _ & ->)])]; eauto).
        destruct Y as [->|(zs & ->)].
        - exists old. cbn [map]. now rewrite app_nil_r.
        - destruct (fold_left (fun a z => add_type (int32 z) (fst a) (snd a)) zs old) as [t1 u1] eqn:E. exists (t1, u1). cbn [map fst snd]. apply V. congruence. }
      destruct Y as (a & Y). assert (Q: ((ts, u), Some rest) = (a, None)) by (apply X; eauto). congruence.
    + split.
      * intros Q. destruct (proj1 (X (ts, u)) eq_refl) as (vs & W & E). exists vs. split; [assumption|]. cbn [fst snd] in E. congruence.
      * intros (vs & W & ->). pose proof W as W'.
        assert (Y: exists a, mkReadReq (map pquery_of (msgs 1 fs0)) (fst a) (snd a) = read_request_of (fs0 ++ map (fun v => (2, v)) vs)).
        { apply (wrong_numbers _ _ _ _ _ _ K) in W' as [[Q _]|[_ D]]; [now destruct Q|].
          assert (Y: vs = [] \/ exists zs, vs = [VNums zs]) by (destruct D as [[_ ->]|(l & len & b' & _ & _ & [[_ ->]|(p & q & r0 & zs & _ & _ & _ & _ & _ & ->)])]; eauto).
          destruct Y as [->|(zs & ->)].
          - exists old. cbn [map]. now rewrite app_nil_r.
          - destruct (fold_left (fun a z => add_type (int32 z) (fst a) (snd a)) zs old) as [t1 u1] eqn:E. exists (t1, u1). cbn [map fst snd]. apply V. congruence. }
        destruct Y as (a & Y). assert (Q: ((ts, u), @None bytes) = (a, None)) by (apply X; eauto). assert (a = (ts, u)) as -> by congruence. cbn [fst snd] in Y. congruence.
  - assert (X: (exists vs, wrong_value read_request_desc short 2 wt b vs /\ m = read_request_of (fs0 ++ map (fun v => (2, v)) vs)) <-> no_value read_request_desc short 2 wt b /\ m = read_request_of fs0).
    { split.
      - intros (vs & W & ->). apply (wrong_numbers _ _ _ _ _ _ K) in W as [(_ & W & ->)|(-> & _)]; [|now destruct Nl]. cbn [map]. rewrite app_nil_r. auto.
      - intros [W ->]. exists []. cbn [map]. rewrite app_nil_r. split; [|reflexivity]. apply (wrong_numbers _ _ _ _ _ _ K). auto. }
    rewrite X. assert (Y: no_value read_request_desc short 2 wt b <-> (if wt =? WVarint then read_int32 b = None else True)).
    { destruct (Z.eqb_spec wt WVarint) as [->|Nv].
      - split.
        + intros N. destruct (read_int32 b) as [[z b']|] eqn:E; [|reflexivity]. apply (int32_as read_request_desc short 2 0) in E as (p & y & -> & W & _); [|auto|reflexivity]. now destruct (N p b' (VNum y)).
        + intros E p rest v -> W. pose proof W as W'. apply (value_nums_iff _ _ _ _ _ _ _ K) in W' as [(_ & y & _ & ->)|(Q & _)]; [|discriminate].
          assert (Q: read_int32 (p ++ rest) = Some (int32 y, rest)) by (apply (int32_as read_request_desc short 2 0); eauto). congruence.
      - split; [constructor|]. intros _ p rest v -> W. apply (value_nums_iff _ _ _ _ _ _ _ K) in W as [(-> & _)|(-> & _)]; [now destruct Nv|now destruct Nl]. }
    rewrite Y. fold (read_request_of fs0). destruct (wt =? WVarint); [|split; [intros Q; split; [exact I|congruence]|intros [_ ->]; reflexivity]].
    destruct (read_int32 b) as [[z b']|].
    + split; [destruct (add_type z _ _); discriminate|]. intros [Q _]. discriminate.
    + split; [intros Q; split; [reflexivity|congruence]|]. intros [_ ->]. reflexivity.
Qed.
Theorem write_request_wrongs : wrongs_as write_request_read write_request_desc write_request_of.
Proof.
  apply (wrongs_field _ _ _ write_request_fields). intros short n wt b fs0 m Hs Hb. unfold write_request_field, write_request_of at 1.
  destruct (Z.eqb_spec n 1) as [->|N1]; [wrep write_request_desc write_request_of 1 pseries_of pseries_wrongs|]. wnone write_request_desc write_request_of.
Qed.
Theorem query_result_wrongs : wrongs_as query_result_read query_result_desc query_result_of.
Proof.
  apply (wrongs_field _ _ _ query_result_fields). intros short n wt b fs0 m Hs Hb. unfold query_result_field, query_result_of at 1.
  destruct (Z.eqb_spec n 1) as [->|N1]; [wrep query_result_desc query_result_of 1 pseries_of pseries_wrongs|]. wnone query_result_desc query_result_of.
Qed.
Theorem read_response_wrongs : wrongs_as read_response_read read_response_desc read_response_of.
Proof.
  apply (wrongs_field _ _ _ read_response_fields). intros short n wt b fs0 m Hs Hb. unfold read_response_field, read_response_of at 1.
  destruct (Z.eqb_spec n 1) as [->|N1]; [wrep read_response_desc read_response_of 1 query_result_of query_result_wrongs|]. wnone read_response_desc read_response_of.
Qed.
Theorem plabels_wrongs : wrongs_as plabels_read plabels_desc plabels_of.
Proof.
  apply (wrongs_field _ _ _ plabels_fields). intros short n wt b fs0 m Hs Hb. unfold plabels_field, plabels_of at 1.
  destruct (Z.eqb_spec n 1) as [->|N1]; [wrep plabels_desc plabels_of 1 plabel_of plabel_wrongs|]. wnone plabels_desc plabels_of.
Qed.
Theorem pchunk_wrongs : wrongs_as pchunk_read pchunk_desc pchunk_of.
Proof.
  apply (wrongs_field _ _ _ pchunk_fields). intros short n wt b fs0 m Hs Hb. unfold pchunk_field, pchunk_of at 1.
  destruct (Z.eqb_spec n 1) as [->|N1]; [wnum pchunk_desc pchunk_of 1|].
  destruct (Z.eqb_spec n 2) as [->|N2]; [wnum pchunk_desc pchunk_of 2|].
  destruct (Z.eqb_spec n 3) as [->|N3]; [apply enum_wrong; reflexivity|].
  destruct (Z.eqb_spec n 4) as [->|N4].
  { match goal with |- context [read_data ?a ?b ?c] => apply (blob_comp (read_data a b c) _ c pchunk_desc _ 4) end;
      [right; reflexivity|intros t rest; now apply data_as|intros rest; now apply form_data|apply read_data_none|reflexivity|unfold pchunk_of; more]. }
  wnone pchunk_desc pchunk_of.
Qed.
Theorem cseries_wrongs : wrongs_as cseries_read cseries_desc cseries_of.
Proof.
  apply (wrongs_field _ _ _ cseries_fields). intros short n wt b fs0 m Hs Hb. unfold cseries_field, cseries_of at 1.
  destruct (Z.eqb_spec n 1) as [->|N1]; [wrep cseries_desc cseries_of 1 plabel_of plabel_wrongs|].
  destruct (Z.eqb_spec n 2) as [->|N2]; [wrep cseries_desc cseries_of 2 pchunk_of pchunk_wrongs|]. wnone cseries_desc cseries_of.
Qed.
Theorem cresponse_wrongs : wrongs_as cresponse_read cresponse_desc cresponse_of.
Proof.
  apply (wrongs_field _ _ _ cresponse_fields). intros short n wt b fs0 m Hs Hb. unfold cresponse_field, cresponse_of at 1.
  destruct (Z.eqb_spec n 1) as [->|N1]; [wrep cresponse_desc cresponse_of 1 cseries_of cseries_wrongs|].
  destruct (Z.eqb_spec n 2) as [->|N2]; [wnum cresponse_desc cresponse_of 2|]. wnone cresponse_desc cresponse_of.
Qed.
