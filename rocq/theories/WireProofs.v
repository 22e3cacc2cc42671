(* Proofs about reading any byte string: the readers accept exactly the grammar of WireSpec.v. *)
From Coq Require Import ZifyBool ZifyNat.
From Verif Require Import Rust Proto Stream WireSpec ProtoProofs.

(* ------------------------------------------------------------------ *)
(** * UTF-8 *)

Lemma utf8_encode c b : scalar c -> utf8 (encode_scalar c ++ b) = utf8 b.
Proof.
  intros [H1 H2]. unfold encode_scalar. destruct (Z.ltb_spec c 128).
  { cbn [app utf8]. destruct (Z.ltb_spec c 128); [reflexivity|lia]. }
  destruct (Z.ltb_spec c 2048).
  { cbn [app utf8]. destruct (Z.ltb_spec (192 + c / 64) 128); [lia|]. unfold between, follow.
    destruct (Z.leb_spec 194 (192 + c / 64)); [|lia]. destruct (Z.leb_spec (192 + c / 64) 223); [|lia]. cbn [andb].
    destruct (Z.leb_spec 128 (128 + c mod 64)); [|lia]. destruct (Z.ltb_spec (128 + c mod 64) 192); [|lia]. reflexivity. }
  destruct (Z.ltb_spec c 65536).
  { cbn [app utf8]. destruct (Z.ltb_spec (224 + c / 4096) 128); [lia|]. unfold between at 1.
    destruct (Z.leb_spec 194 (224 + c / 4096)); [|lia]. destruct (Z.leb_spec (224 + c / 4096) 223); [lia|]. cbn [andb].
    unfold between at 1. destruct (Z.leb_spec 224 (224 + c / 4096)); [|lia]. destruct (Z.leb_spec (224 + c / 4096) 239); [|lia]. cbn [andb].
    assert (B: between (if 224 + c / 4096 =? 224 then 160 else 128) (128 + c / 64 mod 64) (if 224 + c / 4096 =? 237 then 159 else 191) = true).
    { unfold between. destruct (Z.eqb_spec (224 + c / 4096) 224), (Z.eqb_spec (224 + c / 4096) 237); try lia. }
    rewrite B. unfold follow. destruct (Z.leb_spec 128 (128 + c mod 64)); [|lia]. destruct (Z.ltb_spec (128 + c mod 64) 192); [|lia]. reflexivity. }
  cbn [app utf8]. destruct (Z.ltb_spec (240 + c / 262144) 128); [lia|]. unfold between at 1.
  destruct (Z.leb_spec 194 (240 + c / 262144)); [|lia]. destruct (Z.leb_spec (240 + c / 262144) 223); [lia|]. cbn [andb].
  unfold between at 1. destruct (Z.leb_spec 224 (240 + c / 262144)); [|lia]. destruct (Z.leb_spec (240 + c / 262144) 239); [lia|]. cbn [andb].
  unfold between at 1. destruct (Z.leb_spec 240 (240 + c / 262144)); [|lia]. destruct (Z.leb_spec (240 + c / 262144) 244); [|lia]. cbn [andb].
  assert (B: between (if 240 + c / 262144 =? 240 then 144 else 128) (128 + c / 4096 mod 64) (if 240 + c / 262144 =? 244 then 143 else 191) = true).
  { unfold between. destruct (Z.eqb_spec (240 + c / 262144) 240), (Z.eqb_spec (240 + c / 262144) 244); try lia. }
  rewrite B. unfold follow. destruct (Z.leb_spec 128 (128 + c / 64 mod 64)); [|lia]. destruct (Z.ltb_spec (128 + c / 64 mod 64) 192); [|lia].
  destruct (Z.leb_spec 128 (128 + c mod 64)); [|lia]. destruct (Z.ltb_spec (128 + c mod 64) 192); [|lia]. reflexivity.
Qed.
Lemma unicode_cons c b : scalar c -> unicode b -> unicode (encode_scalar c ++ b).
Proof. intros H (cs & F & ->). exists (c :: cs). split; [now constructor|reflexivity]. Qed.
Lemma utf8_unicode b : Forall is_byte b -> utf8 b = true -> unicode b.
Proof.
  assert (G: forall n b, (length b <= n)%nat -> Forall is_byte b -> utf8 b = true -> unicode b).
  2: { intros F H. exact (G _ b (le_n _) F H). }
  clear b. induction n as [|n IH]; intros b L F H.
  { destruct b; [|cbn in L; lia]. exists []. split; [constructor|reflexivity]. }
  destruct b as [|a b1]; [exists []; split; [constructor|reflexivity]|]. cbn [utf8] in H. cbn [length] in L.
  apply Forall_cons_iff in F as [Fa F]. unfold is_byte in Fa.
  destruct (Z.ltb_spec a 128).
  { change (a :: b1) with ([a] ++ b1). replace [a] with (encode_scalar a).
    - apply unicode_cons; [split; lia|apply IH; [lia|assumption..]].
    - unfold encode_scalar. destruct (Z.ltb_spec a 128); [reflexivity|lia]. }
  destruct b1 as [|c1 b2]; [discriminate|]. apply Forall_cons_iff in F as [F1 F]. unfold is_byte in F1. cbn [length] in L.
  destruct (between 194 a 223) eqn:E1.
  { apply andb_prop in H as [H1 H]. unfold between in E1. unfold follow in H1.
    assert (Q: encode_scalar ((a - 192) * 64 + (c1 - 128)) = [a; c1]).
    { unfold encode_scalar. destruct (Z.ltb_spec ((a - 192) * 64 + (c1 - 128)) 128); [lia|].
      destruct (Z.ltb_spec ((a - 192) * 64 + (c1 - 128)) 2048); [|lia]. f_equal; [lia|]. f_equal. lia. }
    change (a :: c1 :: b2) with ([a; c1] ++ b2). rewrite <- Q. apply unicode_cons; [split; lia|apply IH; [lia|assumption..]]. }
  destruct b2 as [|c2 b3]; [discriminate|]. apply Forall_cons_iff in F as [F2 F]. unfold is_byte in F2. cbn [length] in L.
  destruct (between 224 a 239) eqn:E2.
  { apply andb_prop in H as [H H3]. apply andb_prop in H as [H1 H2]. unfold between in E2, H1. unfold follow in H2.
    set (c := (a - 224) * 4096 + (c1 - 128) * 64 + (c2 - 128)).
    assert (D: c / 4096 = a - 224 /\ c / 64 mod 64 = c1 - 128 /\ c mod 64 = c2 - 128 /\ 2048 <= c < 65536 /\ ~ 55296 <= c < 57344).
    { unfold c. destruct (Z.eqb_spec a 224), (Z.eqb_spec a 237); try lia. }
    clearbody c. destruct D as (D1 & D2 & D3 & D4 & D5).
    assert (Q: encode_scalar c = [a; c1; c2]).
    { unfold encode_scalar. destruct (Z.ltb_spec c 128); [lia|]. destruct (Z.ltb_spec c 2048); [lia|]. destruct (Z.ltb_spec c 65536); [|lia].
      rewrite D1, D2, D3. f_equal; [lia|]. f_equal; [lia|]. f_equal. lia. }
    change (a :: c1 :: c2 :: b3) with ([a; c1; c2] ++ b3). rewrite <- Q. apply unicode_cons; [split; lia|apply IH; [lia|assumption..]]. }
  destruct b3 as [|c3 b4]; [discriminate|]. apply Forall_cons_iff in F as [F3 F]. unfold is_byte in F3. cbn [length] in L.
  apply andb_prop in H as [H H5]. apply andb_prop in H as [H H4]. apply andb_prop in H as [H H3]. apply andb_prop in H as [H1 H2].
  unfold between in H1, H2. unfold follow in H3, H4.
  set (c := (a - 240) * 262144 + (c1 - 128) * 4096 + (c2 - 128) * 64 + (c3 - 128)).
  assert (D: c / 262144 = a - 240 /\ c / 4096 mod 64 = c1 - 128 /\ c / 64 mod 64 = c2 - 128 /\ c mod 64 = c3 - 128 /\ 65536 <= c < 1114112).
  { unfold c. destruct (Z.eqb_spec a 240), (Z.eqb_spec a 244); try lia. }
  clearbody c. destruct D as (D1 & D2 & D3 & D4 & D5).
  assert (Q: encode_scalar c = [a; c1; c2; c3]).
  { unfold encode_scalar. destruct (Z.ltb_spec c 128); [lia|]. destruct (Z.ltb_spec c 2048); [lia|]. destruct (Z.ltb_spec c 65536); [lia|].
    rewrite D1, D2, D3, D4. f_equal; [lia|]. f_equal; [lia|]. f_equal; [lia|]. f_equal. lia. }
  change (a :: c1 :: c2 :: c3 :: b4) with ([a; c1; c2; c3] ++ b4). rewrite <- Q. apply unicode_cons; [split; lia|apply IH; [lia|assumption..]].
Qed.
Theorem utf8_iff b : Forall is_byte b -> (utf8 b = true <-> unicode b).
Proof.
  intros F. split; [now apply utf8_unicode|]. intros (cs & H & ->). clear F. induction H as [|c cs Hc H IH]; [reflexivity|].
  cbn [map concat]. now rewrite utf8_encode.
Qed.

(* ------------------------------------------------------------------ *)
(** * Numbers, tags, blocks *)

Lemma sevens_nonneg l : 0 <= sevens l.
Proof. induction l as [|x l IH]; cbn [sevens]; [lia|]. pose proof (Z.mod_pos_bound x 128). lia. Qed.
Definition shaped (l : bytes) : Prop := exists init x, l = init ++ [x] /\ Forall (fun y => 128 <= y) init /\ x < 128.
Lemma shaped_cons x l : shaped (x :: l) <-> (x < 128 /\ l = []) \/ (128 <= x /\ shaped l).
Proof.
  split.
  - intros (i & y & E & F & H). destruct i as [|z i]; cbn [app] in E; injection E as -> ->.
    + left. auto.
    + right. apply Forall_cons_iff in F as [F1 F2]. split; [assumption|]. exists i, y. auto.
  - intros [[H ->] | [H (i & y & -> & F & H')]].
    + exists [], x. auto.
    + exists (x :: i), y. auto.
Qed.
Lemma shaped_ne l : shaped l -> l <> [].
Proof. intros (i & x & -> & _) E. now apply app_eq_nil in E as [_ E]. Qed.
Lemma read_varint_iff n : forall shift acc b z rest, 0 <= shift ->
  (read_varint n shift acc b = Some (z, rest) <->
   exists l, b = l ++ rest /\ shaped l /\ (length l <= n)%nat /\ z = (acc + 2 ^ shift * sevens l) mod 2 ^ 64).
Proof.
  induction n as [|n IH]; intros shift acc b z rest Hs; cbn [read_varint].
  { split; [discriminate|]. intros (l & _ & Hl & L & _). apply shaped_ne in Hl. destruct l; [congruence|cbn in L; lia]. }
  destruct b as [|x b].
  { split; [discriminate|]. intros (l & E & Hl & _). apply shaped_ne in Hl. destruct l; [congruence|discriminate]. }
  destruct (Z.ltb_spec x 128) as [Hx|Hx].
  - split.
    + intros H. injection H as E1 E2. subst rest. exists [x]. split; [reflexivity|]. split; [apply shaped_cons; auto|]. split; [cbn; lia|].
      cbn [sevens]. rewrite <- E1. f_equal. lia.
    + intros (l & E & Hl & L & ->). destruct l as [|y l]; [now apply shaped_ne in Hl|]. cbn [app] in E.
      assert (y = x /\ b = l ++ rest) as [-> ->] by (split; congruence).
      apply shaped_cons in Hl as [[_ ->]|[H _]]; [|lia]. cbn [app sevens]. do 2 f_equal. f_equal. lia.
  - rewrite IH by lia. split.
    + intros (l & -> & Hl & L & ->). exists (x :: l). split; [reflexivity|]. split; [apply shaped_cons; auto|]. split; [cbn [length]; lia|].
      cbn [sevens]. f_equal. rewrite Z.pow_add_r by lia. change (2 ^ 7) with 128. lia.
    + intros (l & E & Hl & L & ->). destruct l as [|y l]; [now apply shaped_ne in Hl|]. cbn [app] in E.
      assert (y = x /\ b = l ++ rest) as [-> ->] by (split; congruence).
      apply shaped_cons in Hl as [[H _]|[_ Hl]]; [lia|]. exists l. split; [reflexivity|]. split; [assumption|]. split; [cbn [length] in L; lia|].
      cbn [sevens]. f_equal. rewrite Z.pow_add_r by lia. change (2 ^ 7) with 128. lia.
Qed.
Lemma read_number b z rest : read_varint64 b = Some (z, rest) <-> exists l, b = l ++ rest /\ number_in l z.
Proof.
  unfold read_varint64. rewrite read_varint_iff by lia. split; intros (l & E & H).
  - destruct H as (H1 & H2 & ->). exists l. split; [assumption|]. split; [exact H1|]. split; [assumption|]. f_equal. lia.
  - destruct H as (H1 & H2 & ->). exists l. split; [assumption|]. split; [exact H1|]. split; [assumption|]. f_equal. lia.
Qed.
Lemma number_ne l z : number_in l z -> l <> [].
Proof. intros [H _]. now apply shaped_ne. Qed.
Lemma read_tag_iff b n wt rest : read_tag b = Some (n, wt, rest) <-> exists t, b = t ++ rest /\ tag_in t n wt.
Proof.
  unfold read_tag, read_varint32. split.
  - destruct (read_varint64 b) as [[z b']|] eqn:E; [|discriminate].
    destruct (Z.leb_spec (z mod 2 ^ 32 mod 8) 5) as [H|H]; [|discriminate]. destruct (Z.eqb_spec (z mod 2 ^ 32 / 8) 0) as [N|N]; [discriminate|].
    cbn [andb negb]. intros Q. assert (n = z mod 2 ^ 32 / 8 /\ wt = z mod 2 ^ 32 mod 8 /\ rest = b') as (-> & -> & ->) by (split; [|split]; congruence).
    apply read_number in E as (l & -> & E). exists l. split; [reflexivity|]. exists z. split; [assumption|].
    pose proof (Z.mod_pos_bound z (2 ^ 32) ltac:(lia)). lia.
  - intros (t & -> & z & H & E & Hn & Hw). assert (Q: read_varint64 (t ++ rest) = Some (z, rest)) by (apply read_number; eauto).
    rewrite Q, E. assert (D: (n * 8 + wt) mod 8 = wt /\ (n * 8 + wt) / 8 = n) by lia. destruct D as [-> ->].
    destruct (Z.leb_spec wt 5); [|lia]. destruct (Z.eqb_spec n 0); [lia|]. reflexivity.
Qed.
Lemma tag_in_ne t n wt : tag_in t n wt -> t <> [].
Proof. intros (z & H & _). now apply number_ne in H. Qed.
Lemma read_bytes_iff len b x rest : 0 <= len -> (read_bytes len b = Some (x, rest) <-> b = x ++ rest /\ Z.of_nat (length x) = len).
Proof.
  intros Hl. unfold read_bytes. destruct (Z.ltb_spec (Z.of_nat (length b)) len) as [H|H].
  - split; [discriminate|]. intros [-> E]. rewrite app_length in H. lia.
  - split.
    + intros E. assert (x = firstn (Z.to_nat len) b /\ rest = skipn (Z.to_nat len) b) as [-> ->] by (split; congruence).
      split; [now rewrite firstn_skipn|]. rewrite firstn_length. lia.
    + intros [-> <-]. rewrite Nat2Z.id, firstn_app, skipn_app, Nat.sub_diag, firstn_all, skipn_all. cbn [firstn skipn app]. now rewrite app_nil_r.
Qed.
Lemma read_block b x rest : (match read_varint32 b with None => None | Some (len, b') => read_bytes len b' end) = Some (x, rest) <->
  exists p, b = p ++ rest /\ block_in p x.
Proof.
  unfold read_varint32. split.
  - destruct (read_varint64 b) as [[z b']|] eqn:E; [|discriminate]. intros H. apply read_bytes_iff in H as [-> H]; [|apply Z.mod_pos_bound; lia].
    apply read_number in E as (l & -> & E). exists (l ++ x). split; [apply app_assoc|]. exists l, z. auto.
  - intros (p & -> & l & z & -> & H & E). assert (Q: read_varint64 ((l ++ x) ++ rest) = Some (z, x ++ rest)).
    { apply read_number. exists l. split; [now rewrite app_assoc|assumption]. }
    rewrite Q. apply read_bytes_iff; [apply Z.mod_pos_bound; lia|auto].
Qed.
Lemma from_le_little b : from_le b = little b.
Proof. reflexivity. Qed.
Lemma read_fixed_iff n b z rest : read_fixed n b = Some (z, rest) <-> exists p, b = p ++ rest /\ length p = n /\ z = little p.
Proof.
  unfold read_fixed. split.
  - destruct (read_bytes (Z.of_nat n) b) as [[x b']|] eqn:E; [|discriminate]. apply read_bytes_iff in E as [-> E]; [|lia].
    intros Q. assert (z = from_le x /\ rest = b') as [-> ->] by (split; congruence). exists x. split; [reflexivity|]. split; [lia|reflexivity].
  - intros (p & -> & H & ->). assert (Q: read_bytes (Z.of_nat n) (p ++ rest) = Some (p, rest)) by (apply read_bytes_iff; [lia|]; split; [reflexivity|lia]).
    now rewrite Q.
Qed.

(* the value of an unknown field *)
Definition kept (u : uval) : fval :=
  match u with UVarint z => VNum z | UFixed64 z => V64 z | UFixed32 z => V32 z | UBytes b => VBytes b end.
Lemma read_unknown_iff wt b u rest : read_unknown wt b = Some (u, rest) <-> exists p, b = p ++ rest /\ plain wt p (kept u).
Proof.
  unfold read_unknown. destruct (Z.eqb_spec wt WVarint) as [->|N0].
  { split.
    - destruct (read_varint64 b) as [[z b']|] eqn:E; [|discriminate]. intros Q. assert (u = UVarint z /\ rest = b') as [-> ->] by (split; congruence).
      apply read_number in E as (l & -> & E). exists l. split; [reflexivity|]. now constructor.
    - intros (p & -> & H). unfold WVarint in H. inversion H as [p0 z Hz Ew Ep Ev| | |]; subst. destruct u; cbn [kept] in Ev; try discriminate Ev.
      assert (z = z0) as -> by congruence. assert (Q: read_varint64 (p ++ rest) = Some (z0, rest)) by (apply read_number; eauto). now rewrite Q. }
  destruct (Z.eqb_spec wt WFixed64) as [->|N1].
  { split.
    - destruct (read_fixed 8 b) as [[z b']|] eqn:E; [|discriminate]. intros Q. assert (u = UFixed64 z /\ rest = b') as [-> ->] by (split; congruence).
      apply read_fixed_iff in E as (l & -> & E & ->). exists l. split; [reflexivity|]. now constructor.
    - intros (p & -> & H). unfold WFixed64 in H. inversion H as [|p0 Hp Ew Ep Ev| |]; subst. destruct u; cbn [kept] in Ev; try discriminate Ev.
      assert (z = little p) as -> by congruence. assert (Q: read_fixed 8 (p ++ rest) = Some (little p, rest)) by (apply read_fixed_iff; eauto). now rewrite Q. }
  destruct (Z.eqb_spec wt WFixed32) as [->|N5].
  { split.
    - destruct (read_fixed 4 b) as [[z b']|] eqn:E; [|discriminate]. intros Q. assert (u = UFixed32 z /\ rest = b') as [-> ->] by (split; congruence).
      apply read_fixed_iff in E as (l & -> & E & ->). exists l. split; [reflexivity|]. now constructor.
    - intros (p & -> & H). unfold WFixed32 in H. inversion H as [| | |p0 Hp Ew Ep Ev]; subst. destruct u; cbn [kept] in Ev; try discriminate Ev.
      assert (z = little p) as -> by congruence. assert (Q: read_fixed 4 (p ++ rest) = Some (little p, rest)) by (apply read_fixed_iff; eauto). now rewrite Q. }
  destruct (Z.eqb_spec wt WLen) as [->|N2].
  { pose proof (read_block b) as R. split.
    - destruct (read_varint32 b) as [[len b']|]; [|discriminate]. destruct (read_bytes len b') as [[x b'']|]; [|discriminate].
      intros Q. assert (u = UBytes x /\ rest = b'') as [-> ->] by (split; congruence). destruct (proj1 (R x b'') eq_refl) as (p & -> & H).
      exists p. split; [reflexivity|]. now constructor.
    - intros (p & -> & H). unfold WLen in H. inversion H as [| |p0 x Hx Ew Ep Ev|]; subst. destruct u; cbn [kept] in Ev; try discriminate Ev.
      assert (b = x) as -> by congruence. specialize (R x rest). destruct R as [_ R].
      specialize (R (ex_intro _ p (conj eq_refl Hx))). destruct (read_varint32 (p ++ rest)) as [[len b']|]; [|discriminate]. rewrite R. reflexivity. }
  split; [discriminate|]. intros (p & _ & H). inversion H; subst; contradiction.
Qed.
Lemma plain_kept wt p v : plain wt p v -> exists u, v = kept u.
Proof.
  intros H. inversion H; subst; [exists (UVarint z)|exists (UFixed64 (little p))|exists (UBytes x)|exists (UFixed32 (little p))]; reflexivity.
Qed.
Lemma skip_group_sound n : forall b rest, skip_group n b = Some rest -> exists g, b = g ++ rest /\ group g.
Proof.
  induction n as [|n IH]; intros b rest H; cbn [skip_group] in H; [discriminate|].
  destruct (read_tag b) as [[[num wt] b1]|] eqn:E; [|discriminate]. apply read_tag_iff in E as (t & -> & Ht).
  destruct (Z.eqb_spec wt WEndGroup) as [->|N4].
  { assert (b1 = rest) as -> by congruence. exists t. split; [reflexivity|]. exact (group_end t num Ht). }
  destruct (Z.eqb_spec wt WStartGroup) as [->|N3].
  { destruct (skip_group n b1) as [b2|] eqn:E2; [|discriminate]. apply IH in E2 as (g & -> & G). apply IH in H as (g' & -> & G').
    exists (t ++ g ++ g'). split; [now rewrite !app_assoc|]. exact (group_inner t num g g' Ht G G'). }
  destruct (read_unknown wt b1) as [[u b2]|] eqn:E2; [|discriminate]. apply read_unknown_iff in E2 as (p & -> & P). apply IH in H as (g' & -> & G').
  exists (t ++ p ++ g'). split; [now rewrite !app_assoc|]. exact (group_field t num wt p _ g' Ht P G').
Qed.
Lemma skip_group_complete g : group g -> forall n rest, (length g < n)%nat -> skip_group n (g ++ rest) = Some rest.
Proof.
  induction 1 as [t k Ht | t k g g' Ht G IG G' IG' | t k wt p v g' Ht P G' IG']; intros n rest L; (destruct n as [|n]; [lia|]); cbn [skip_group].
  - assert (Q: read_tag (t ++ rest) = Some (k, 4, rest)) by (apply read_tag_iff; eauto). rewrite Q. reflexivity.
  - assert (Q: read_tag ((t ++ g ++ g') ++ rest) = Some (k, 3, g ++ g' ++ rest)) by (apply read_tag_iff; exists t; split; [now rewrite <- !app_assoc|assumption]).
    rewrite Q. change (3 =? WEndGroup) with false. change (3 =? WStartGroup) with true. cbv iota.
    rewrite !app_length in L. apply tag_in_ne in Ht. destruct t; [congruence|]. cbn [length] in L. rewrite IG by lia. apply IG'. lia.
  - assert (Q: read_tag ((t ++ p ++ g') ++ rest) = Some (k, wt, p ++ g' ++ rest)) by (apply read_tag_iff; exists t; split; [now rewrite <- !app_assoc|assumption]).
    rewrite Q. destruct (plain_kept _ _ _ P) as (u & ->).
    assert (N: wt <> WEndGroup /\ wt <> WStartGroup) by (inversion P; subst; split; discriminate). destruct N as [N1 N2].
    apply Z.eqb_neq in N1, N2. rewrite N1, N2. assert (Q2: read_unknown wt (p ++ g' ++ rest) = Some (u, g' ++ rest)) by (apply read_unknown_iff; eauto).
    rewrite Q2. apply IG'. rewrite !app_length in L. apply tag_in_ne in Ht. destruct t; [congruence|]. cbn [length] in L. lia.
Qed.
Lemma skip_group_iff b rest : skip_group (S (length b)) b = Some rest <-> exists g, b = g ++ rest /\ group g.
Proof.
  split; [apply skip_group_sound|]. intros (g & -> & G). apply skip_group_complete; [assumption|]. rewrite app_length. lia.
Qed.
Lemma read_packed_iff n : forall b ts u ts' u', (length b < n)%nat ->
  (read_packed n b ts u = ((ts', u'), true) <->
   exists zs, packed b zs /\ (ts', u') = fold_left (fun a z => add_type (int32 z) (fst a) (snd a)) zs (ts, u)).
Proof.
  induction n as [|n IH]; intros b ts u ts' u' L; [lia|]. cbn [read_packed]. destruct b as [|x b0].
  - split.
    + intros H. exists []. split; [constructor|]. cbn [fold_left]. congruence.
    + intros (zs & P & E). inversion P as [|l z b zs' Hl P' Eb Ez]; subst; [cbn [fold_left] in E; congruence|].
      apply app_eq_nil in Eb as [-> _]. now apply number_ne in Hl.
  - set (b := x :: b0) in *. unfold read_int32, read_varint32. destruct (read_varint64 b) as [[z b']|] eqn:E.
    + pose proof E as E'. apply read_number in E' as (l & Eb & Hl). destruct (add_type (wraps 32 (z mod 2 ^ 32)) ts u) as [t1 u1] eqn:A.
      rewrite IH. 2: { rewrite Eb, app_length in L. apply number_ne in Hl. destruct l; [congruence|]. cbn [length] in L. lia. }
      split; intros (zs & P & Q).
      * exists (z :: zs). rewrite Eb. split; [now constructor|]. cbn [fold_left fst snd]. unfold int32 at 2. now rewrite A.
      * inversion P as [Eb'|l' z' b1 zs' Hl' P' Eb' Ez]. subst zs.
        assert (Q': read_varint64 b = Some (z', b1)) by (rewrite <- Eb'; apply read_number; eauto). rewrite E in Q'.
        assert (z' = z /\ b1 = b') as [-> ->] by (split; congruence). exists zs'. split; [assumption|].
        cbn [fold_left fst snd] in Q. unfold int32 at 2 in Q. now rewrite A in Q.
    + split; [discriminate|]. intros (zs & P & Q). inversion P as [Eb'|l' z' b1 zs' Hl' P' Eb' Ez]. subst zs.
      assert (Q': read_varint64 b = Some (z', b1)) by (rewrite <- Eb'; apply read_number; eauto). congruence.
Qed.

(* ------------------------------------------------------------------ *)
(** * Values *)

(* an inner message *)
Lemma merge_message_iff {A} (r : reader A) short b new a rest : 0 <= short ->
  (merge_message r short b new = (a, Some rest) <->
   exists l len body, b = l ++ body ++ rest /\ number_in l len /\ extent short len body rest /\ r (len - Z.of_nat (length body)) body new = (a, true)).
Proof.
  intros Hs. unfold merge_message. split.
  - destruct (read_varint64 b) as [[len b1]|] eqn:E; [|discriminate]. apply read_number in E as (l & -> & Hl).
    assert (H0: 0 <= len < 2 ^ 64) by (destruct Hl as (_ & _ & ->); apply Z.mod_pos_bound; lia).
    destruct (Z.ltb_spec (Z.of_nat (length b1) + short) len) as [H|H]; [discriminate|].
    set (n := Z.to_nat (Z.min len (Z.of_nat (length b1)))). destruct (r _ (firstn n b1) new) as [a' ok] eqn:E. destruct ok; [|discriminate].
    intros Q. assert (a = a' /\ rest = skipn n b1) as [-> ->] by (split; congruence).
    exists l, len, (firstn n b1). rewrite firstn_skipn. split; [reflexivity|]. split; [assumption|].
    assert (Ln: Z.of_nat (length (firstn n b1)) = Z.min len (Z.of_nat (length b1))) by (rewrite firstn_length; lia). rewrite Ln. split.
    + destruct (Z.le_gt_cases len (Z.of_nat (length b1))) as [H1|H1]; [left; lia|right]. split; [|lia]. apply skipn_all2. lia.
    + rewrite <- E. f_equal. lia.
  - intros (l & len & body & -> & Hl & P & E). assert (Q: read_varint64 (l ++ body ++ rest) = Some (len, body ++ rest)) by (apply read_number; eauto).
    rewrite Q. destruct P as [P|[-> P]].
    + rewrite app_length. destruct (Z.ltb_spec (Z.of_nat (length body + length rest) + short) len) as [H|H]; [lia|].
      replace (Z.to_nat (Z.min len (Z.of_nat (length body + length rest)))) with (length body) by lia.
      rewrite firstn_app, skipn_app, Nat.sub_diag, firstn_all, skipn_all. cbn [firstn skipn app]. rewrite app_nil_r.
      replace (Z.max 0 (len - Z.of_nat (length body + length rest))) with (len - Z.of_nat (length body)) by lia. now rewrite E.
    + rewrite app_nil_r. destruct (Z.ltb_spec (Z.of_nat (length body) + short) len) as [H|H]; [lia|].
      replace (Z.to_nat (Z.min len (Z.of_nat (length body)))) with (length body) by lia. rewrite firstn_all, skipn_all.
      replace (Z.max 0 (len - Z.of_nat (length body))) with (len - Z.of_nat (length body)) by lia. now rewrite E.
Qed.

(* [r] reads messages described by d *)
Definition reads_as {M} (r : reader M) (d : desc) (of : list (Z * fval) -> M) : Prop :=
  forall short b fs0 m, 0 <= short -> Forall is_byte b ->
  (r short b (of fs0) = (m, true) <-> exists fs, fields_in d short b fs /\ m = of (fs0 ++ fs)).
(* [field] reads one of their fields *)
Definition field_as {M} (field : Z -> Z -> Z -> bytes -> M -> M * option bytes) (d : desc) (of : list (Z * fval) -> M) : Prop :=
  forall short n wt b fs0 m rest, 0 <= short -> Forall is_byte b ->
  (field short n wt b (of fs0) = (m, Some rest) <-> exists p v, b = p ++ rest /\ value_in d short n wt p rest v /\ m = of (fs0 ++ [(n, v)])).
Lemma fields_S {M} (field : Z -> Z -> Z -> bytes -> M -> M * option bytes) n short b m : b <> [] ->
  fields field (S n) short b m =
  match read_tag b with
  | None => (m, false)
  | Some (number, wt, b1) =>
      match field short number wt b1 m with
      | (m', None) => (m', false)
      | (m', Some b2) => fields field n short b2 m'
      end
  end.
Proof. intros N. destruct b; [congruence|reflexivity]. Qed.
Lemma reads_field {M} field d (of : list (Z * fval) -> M) : field_as field d of -> reads_as (reads field) d of.
Proof.
  intros F short b fs0 m Hs Hb. unfold reads. assert (L: (length b < S (length b))%nat) by lia. revert L.
  generalize (S (length b)) as n. intros n. revert b fs0 m Hb. induction n as [|n IH]; intros b fs0 m Hb L; [lia|].
  destruct b as [|x b0].
  { cbn [fields]. split.
    - intros H. exists []. split; [constructor|]. rewrite app_nil_r. congruence.
    - intros (fs & P & ->). inversion P as [|d' s' t num wt p v rest fs' Ht _ _ Ed Es Eb]; subst; [now rewrite app_nil_r|].
      apply app_eq_nil in Eb as [-> _]. now apply tag_in_ne in Ht. }
  rewrite fields_S by discriminate. assert (N: x :: b0 <> []) by discriminate. generalize dependent (x :: b0). clear x b0. intros b Hb L N. split.
  - destruct (read_tag b) as [[[num wt] b1]|] eqn:E; [|discriminate]. apply read_tag_iff in E as (t & E & Ht).
    assert (Hb1: Forall is_byte b1) by (rewrite E in Hb; now apply Forall_app in Hb). assert (L1: (length b1 < n)%nat).
    { rewrite E, app_length in L. apply tag_in_ne in Ht. destruct t; [congruence|cbn [length] in L; lia]. }
    destruct (field short num wt b1 (of fs0)) as [m' [b2|]] eqn:E2; [|discriminate]. apply F in E2 as (p & v & E2 & V & ->); [|assumption..].
    intros H. apply IH in H as (fs & P & ->); [|rewrite E2 in Hb1; now apply Forall_app in Hb1|rewrite E2, app_length in L1; lia].
    exists ((num, v) :: fs). rewrite E, E2. split; [exact (fields_more d short t num wt p v b2 fs Ht V P)|]. now rewrite <- app_assoc.
  - intros (fs & P & ->). inversion P as [d' s' Ed Es Eb|d' s' t num wt p v rest fs' Ht V P' Ed Es Eb Ef]; [congruence|]. subst d' s' fs b.
    assert (Q: read_tag (t ++ p ++ rest) = Some (num, wt, p ++ rest)) by (apply read_tag_iff; exists t; auto). rewrite Q.
    assert (Hb1: Forall is_byte (p ++ rest)) by (now apply Forall_app in Hb).
    assert (Q2: field short num wt (p ++ rest) (of fs0) = (of (fs0 ++ [(num, v)]), Some rest)) by (apply F; [assumption..|]; exists p, v; auto).
    rewrite Q2. apply IH; [now apply Forall_app in Hb1| |].
    { rewrite !app_length in L. apply tag_in_ne in Ht. destruct t; [congruence|cbn [length] in L; lia]. }
    exists fs'. split; [assumption|]. now rewrite <- app_assoc.
Qed.

Lemma let_iff {A M} (x : A * option bytes) (f : A -> M) m rest :
  (let '(a, r) := x in (f a, r)) = (m, Some rest) <-> exists a, x = (a, Some rest) /\ m = f a.
Proof.
  destruct x as [a r]. split.
  - intros H. exists a. split; congruence.
  - intros (a' & H & ->). congruence.
Qed.
Lemma value_num_iff d short n wt p rest v : kind_of d n = Some KNum -> (value_in d short n wt p rest v <-> wt = 0 /\ exists z, number_in p z /\ v = VNum z).
Proof.
  intros K. split.
  - intros H. inversion H; subst; try congruence. split; [reflexivity|]. eexists. split; [eassumption|reflexivity].
  - intros (-> & z & Hz & ->). constructor; auto.
Qed.
Lemma value_64_iff d short n wt p rest v : kind_of d n = Some K64 -> (value_in d short n wt p rest v <-> wt = 1 /\ length p = 8%nat /\ v = V64 (little p)).
Proof.
  intros K. split.
  - intros H. inversion H; subst; try congruence; [destruct H0; congruence|]. auto.
  - intros (-> & Hp & ->). constructor; auto.
Qed.
Lemma value_text_iff d short n wt p rest v : kind_of d n = Some KText ->
  (value_in d short n wt p rest v <-> wt = 2 /\ exists x, block_in p x /\ unicode x /\ v = VBytes x).
Proof.
  intros K. split.
  - intros H. inversion H; subst; try congruence; [destruct H0; congruence|]. split; [reflexivity|]. eexists. eauto.
  - intros (-> & x & Hx & Hu & ->). constructor; auto.
Qed.
Lemma value_data_iff d short n wt p rest v : kind_of d n = Some KData ->
  (value_in d short n wt p rest v <-> wt = 2 /\ exists x, block_in p x /\ v = VBytes x).
Proof.
  intros K. split.
  - intros H. inversion H; subst; try congruence; [destruct H0; congruence|]. split; [reflexivity|]. eexists. eauto.
  - intros (-> & x & Hx & ->). apply value_data; auto.
Qed.
Lemma value_msg_iff d short n wt p rest v d' : kind_of d n = Some (KMsg d') ->
  (value_in d short n wt p rest v <-> wt = 2 /\ exists l len body fs, p = l ++ body /\ number_in l len /\ extent short len body rest /\
     fields_in d' (len - Z.of_nat (length body)) body fs /\ v = VMsg fs).
Proof.
  intros K. split.
  - intros H. inversion H; subst; try congruence; [destruct H0; congruence|]. split; [reflexivity|].
    match goal with H : kind_of d n = Some (KMsg ?x) |- _ => assert (x = d') as -> by congruence end. eexists _, _, _, _. eauto 6.
  - intros (-> & l & len & body & fs & -> & Hl & P & F & ->). eapply value_msg; eauto.
Qed.
Lemma value_nums_iff d short n wt p rest v : kind_of d n = Some KNums ->
  (value_in d short n wt p rest v <-> (wt = 0 /\ exists z, number_in p z /\ v = VNum z) \/
    (wt = 2 /\ exists l len body zs, p = l ++ body /\ number_in l len /\ extent short len body rest /\ packed body zs /\ v = VNums zs)).
Proof.
  intros K. split.
  - intros H. inversion H; subst; try congruence.
    + left. split; [reflexivity|]. eexists. eauto.
    + right. split; [reflexivity|]. eexists _, _, _, _. eauto 6.
  - intros [(-> & z & Hz & ->) | (-> & l & len & body & zs & -> & Hl & P & F & ->)]; [constructor; auto|]. eapply value_nums; eauto.
Qed.
Lemma value_none_iff d short n wt p rest v : kind_of d n = None ->
  (value_in d short n wt p rest v <-> plain wt p v \/ (wt = 3 /\ group p /\ v = VGroup)).
Proof.
  intros K. split.
  - intros H. inversion H; subst; try congruence; [destruct H0; congruence|left; assumption|right; auto].
  - intros [P | (-> & G & ->)]; [now apply value_plain|now apply value_group].
Qed.
