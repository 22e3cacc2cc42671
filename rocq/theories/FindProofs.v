(* Looking up a file in a directory: proofs. *)
From Verif Require Import WireSpec WireProofs.
From Verif Require Import Rust StringProofs Proto Find FindSpec.

Lemma find_outcome l filename : Forall (fun x => match x with Some n => Forall is_byte n | None => True end) l ->
  (exists before after, l = before ++ Some filename :: after /\ ~ In (Some filename) before /\ all_text before /\ unicode filename /\ find_entry l filename = Ok (Some filename)) \/
  (~ In (Some filename) l /\ all_text l /\ find_entry l filename = Ok None) \/
  (exists before, up_to l filename before /\ (~ all_text before \/ ~ unicode filename) /\ find_entry l filename = Panic).
Proof.
  induction l as [|x l IH]; intros HB.
  - right; left. split; [intros []|]. split; [intros n []|reflexivity].
  - inversion_clear HB as [|? ? B1 B2]. specialize (IH B2). destruct x as [n|]; cbn [find_entry].
    + destruct (utf8 n) eqn:U.
      * apply utf8_iff in U; [|assumption]. destruct (bytes_eqb n filename) eqn:E.
        { apply bytes_eqb_spec in E. subst n. left. exists [], l. split; [reflexivity|]. split; [intros []|]. split; [intros n []|]. split; [exact U|reflexivity]. }
        assert (NE: n <> filename) by (intros ->; rewrite bytes_eqb_refl in E; discriminate).
        destruct IH as [(b & a & -> & N & T & U2 & ->)|[(N & T & ->)|(b & UT & NT & ->)]].
        { left. exists (Some n :: b), a. split; [reflexivity|]. split; [intros [H|H]; [congruence|auto]|]. split; [|split; [exact U2|reflexivity]]. intros m [H|H]; [congruence|auto]. }
        { right; left. split; [intros [H|H]; [congruence|auto]|]. split; [|reflexivity]. intros m [H|H]; [congruence|auto]. }
        { right; right. exists (Some n :: b). split; [|split; [|reflexivity]].
          - destruct UT as [(a & -> & N)|(-> & N)]; [left; exists a; split; [reflexivity|]|right; split; [reflexivity|]]; intros [H|H]; congruence.
          - destruct NT as [NT|NT]; [left|now right]. intros T. apply NT. intros m H. apply T. now right. }
      * assert (NU: ~ unicode n) by (intros H; apply utf8_iff in H; [congruence|assumption]).
        right; right. destruct (list_eq_dec Z.eq_dec n filename) as [->|NE].
        { exists []. split; [left; exists l; split; [reflexivity|intros []]|]. split; [now right|reflexivity]. }
        assert (S: exists b, up_to l filename b).
        { clear. induction l as [|x l (b & H)]; [exists []; right; split; [reflexivity|intros []]|].
          destruct x as [m|]; [destruct (list_eq_dec Z.eq_dec m filename) as [->|NE]|].
          - exists []. left. exists l. split; [reflexivity|intros []].
          - exists (Some m :: b). destruct H as [(a & -> & N)|(-> & N)]; [left; exists a; split; [reflexivity|]|right; split; [reflexivity|]]; intros [H|H]; congruence.
          - exists (None :: b). destruct H as [(a & -> & N)|(-> & N)]; [left; exists a; split; [reflexivity|]|right; split; [reflexivity|]]; intros [H|H]; congruence. }
        destruct S as (b & UT). exists (Some n :: b). split; [|split; [left; intros T; apply NU, T; now left|reflexivity]].
        destruct UT as [(a & -> & N)|(-> & N)]; [left; exists a; split; [reflexivity|]|right; split; [reflexivity|]]; intros [H|H]; congruence.
    + destruct IH as [(b & a & -> & N & T & U2 & ->)|[(N & T & ->)|(b & UT & NT & ->)]].
      * left. exists (None :: b), a. split; [reflexivity|]. split; [intros [H|H]; [congruence|auto]|]. split; [|split; [exact U2|reflexivity]]. intros m [H|H]; [congruence|auto].
      * right; left. split; [intros [H|H]; [congruence|auto]|]. split; [|reflexivity]. intros m [H|H]; [congruence|auto].
      * right; right. exists (None :: b). split; [|split; [|reflexivity]].
        { destruct UT as [(a & -> & N)|(-> & N)]; [left; exists a; split; [reflexivity|]|right; split; [reflexivity|]]; intros [H|H]; congruence. }
        { destruct NT as [NT|NT]; [left|now right]. intros T. apply NT. intros m H. apply T. now right. }
Qed.
Lemma up_to_unique l filename b b' : up_to l filename b -> up_to l filename b' -> b = b'.
Proof.
  revert b b'. induction l as [|x l IH]; intros b b' H H'.
  - destruct H as [(a & E & _)|(<- & _)]; [destruct b; discriminate|]. destruct H' as [(a & E & _)|(<- & _)]; [destruct b'; discriminate|reflexivity].
  - assert (K: forall c, up_to (x :: l) filename c -> (x = Some filename /\ c = []) \/ (x <> Some filename /\ exists c', c = x :: c' /\ up_to l filename c')).
    { intros c [(a & E & N)|(<- & N)].
      - destruct c as [|y c]; cbn [app] in E; [left; split; congruence|]. right. assert (y = x) as -> by congruence. split; [intros ->; apply N; now left|].
        exists c. split; [reflexivity|]. left. exists a. split; [congruence|]. intros K. apply N. now right.
      - right. split; [intros ->; apply N; now left|]. exists l. split; [reflexivity|]. right. split; [reflexivity|]. intros K. apply N. now right. }
    destruct (K _ H) as [(E & ->)|(E & c & -> & U)], (K _ H') as [(E' & ->)|(E' & c' & -> & U')]; try contradiction; [reflexivity|]. f_equal. eauto.
Qed.

Theorem lookup : forall {F} (l : list entry) (open : bytes -> option F) filename before,
  Forall (fun x => match x with Some n => Forall is_byte n | None => True end) l -> unicode filename -> up_to l filename before ->
  let r := get_file_from_dir (Some l) open filename in
  (r = Panic <-> ~ all_text before) /\
  (forall fl, r = Ok (Some fl) <-> all_text before /\ In (Some filename) l /\ open filename = Some fl) /\
  (r = Ok None <-> all_text l /\ ~ In (Some filename) l) /\
  (forall e, r = Err e <-> e = IoError /\ all_text before /\ In (Some filename) l /\ open filename = None) /\
  get_file_from_dir None open filename = Err IoError.
Proof.
  intros F l open filename before HB HU UT r. subst r. cbn [get_file_from_dir].
  destruct (find_outcome l filename HB) as [(b & a & E & N & T & _ & ->)|[(N & T & ->)|(b & UB & NT & ->)]]; cbn [rbind].
  - assert (before = b) as -> by (apply (up_to_unique l filename); [assumption|left; eauto]).
    assert (I: In (Some filename) l) by (rewrite E; apply in_or_app; right; now left).
    destruct (open filename) as [fl|].
    + split; [split; [discriminate|tauto]|]. split; [intros fl0; split; [intros H; repeat split; try assumption; congruence|intros (_ & _ & H); congruence]|].
      split; [split; [discriminate|tauto]|]. split; [intros e; split; [discriminate|intros (_ & _ & _ & H); discriminate]|reflexivity].
    + split; [split; [discriminate|tauto]|]. split; [intros fl0; split; [discriminate|intros (_ & _ & H); discriminate]|].
      split; [split; [discriminate|tauto]|]. split; [intros e; split; [intros H; repeat split; try assumption; congruence|intros (-> & _); reflexivity]|reflexivity].
  - assert (before = l) as -> by (apply (up_to_unique l filename); [assumption|right; auto]).
    split; [split; [discriminate|tauto]|]. split; [intros fl0; split; [discriminate|tauto]|].
    split; [tauto|]. split; [intros e; split; [discriminate|tauto]|reflexivity].
  - assert (before = b) as -> by (apply (up_to_unique l filename); assumption). destruct NT as [NT|NT]; [|contradiction].
    split; [tauto|]. split; [intros fl0; split; [discriminate|tauto]|]. split.
    { split; [discriminate|]. intros (H & _). exfalso. apply NT. intros n Hn. apply H.
      destruct UB as [(a & -> & _)|(-> & _)]; [apply in_or_app; now left|assumption]. }
    split; [intros e; split; [discriminate|tauto]|reflexivity].
Qed.
