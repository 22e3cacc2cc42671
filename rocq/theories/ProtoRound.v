(* Proofs about each wire message: its size, and that reading what was written gives it back. *)
From Coq Require Import ZifyBool ZifyNat.
From Verif Require Import Rust Proto ProtoSpec ProtoProofs.

Ltac wires := unfold WVarint, WFixed64, WFixed32, WLen in *.
Ltac unk_tac :=
  let m := fresh "m" in let Hn := fresh in let Hw := fresh in let number := fresh in let wt := fresh in let b := fresh in
  intros ? number wt b m Hn Hw; destruct m;
  unfold sample_field, plabel_field, pseries_field, matcher_field, hints_field, pquery_field, write_request_field,
    read_request_field, query_result_field, read_response_field;
  repeat match goal with |- context [number =? ?k] => replace (number =? k) with false by lia end;
  rewrite unknown_field by exact Hw; cbn match; destruct (read_unknown wt b) as [[? ?]|]; cbn match; rewrite ?app_nil_r; reflexivity.
Ltac nosize := unfold optz, int64_size, string_size, enum_size, tag_size, varint32_size, varint64_size in *.

Lemma int64_size_nonneg n z : 0 <= int64_size n z.
Proof. unfold int64_size, tag_size, varint32_size, varint64_size. pose proof (varint_size_nonneg 5 (n * 8)). pose proof (varint_size_nonneg 10 (wrapu 64 z)). lia. Qed.
Lemma string_size_ge n s : Z.of_nat (length s) <= string_size n s.
Proof. unfold string_size, tag_size, varint32_size. pose proof (varint_size_nonneg 5 (n * 8)). pose proof (varint_size_nonneg 5 (Z.of_nat (length s))). lia. Qed.
Lemma string_size_nonneg n s : 0 <= string_size n s.
Proof. pose proof (string_size_ge n s). lia. Qed.
Lemma optz_nonneg c z : 0 <= z -> 0 <= optz c z.
Proof. destruct c; [auto|reflexivity]. Qed.
Lemma optz_string n s k : optz (nonempty s) (string_size n s) < k -> 0 < k -> Z.of_nat (length s) < k.
Proof. destruct s as [|x s]; cbn [nonempty optz]; intros H Hk; [cbn; lia|]. pose proof (string_size_ge n (x :: s)). lia. Qed.

(* ------------------------------------------------------------------ *)
(** * Sample *)

Lemma sample_length m : sample_ok m -> Z.of_nat (length (sample_write m)) = sample_size m.
Proof.
  intros (_ & _ & Hu). unfold sample_write, sample_size. rewrite !app_length, !Nat2Z.inj_add.
  rewrite (unknowns_length 2) by (try assumption; lia). rewrite (opt_length _ _ _ (int64_length 2 (sm_ts m) ltac:(lia))).
  rewrite (opt_length _ (w_double 1 (sm_value m)) 9); [lia|].
  unfold w_double. rewrite app_length, le_length. reflexivity.
Qed.
Lemma sample_eats m : sample_ok m -> sample_size m < 2 ^ 32 -> eats sample_field (sample_write m) sample_new (sample_back m).
Proof.
  intros (Hv & Ht & Hu) Hsz. destruct m as [v t u]. cbn [sm_value sm_ts sm_unk] in *. unfold sample_write, sample_back. cbn [sm_value sm_ts sm_unk].
  assert (Su: unknowns_size u < 2 ^ 32).
  { unfold sample_size in Hsz. cbn [sm_value sm_ts sm_unk] in Hsz. pose proof (optz_nonneg (nonzero_f64 v) 9).
    pose proof (optz_nonneg (negb (t =? 0)) _ (int64_size_nonneg 2 t)). lia. }
  apply eats_app with (m2 := mkSample (pos_zero v) 0 []).
  { apply eats_opt with (m' := mkSample v 0 []).
    - apply eats_field; [lia|wires; lia|]. intros short rest Hs. cbn [sample_field sample_new]. change (1 =? 1) with true. cbn match.
      rewrite read_double_ok by assumption. reflexivity.
    - unfold nonzero_f64, pos_zero. intros E. replace (v =? 2 ^ 63) with false by lia. reflexivity.
    - unfold nonzero_f64, pos_zero. intros E. destruct (v =? 2 ^ 63) eqn:E2; [reflexivity|]. replace v with 0 by lia. reflexivity. }
  apply eats_app with (m2 := mkSample (pos_zero v) t []).
  { apply eats_opt with (m' := mkSample (pos_zero v) t []).
    - apply eats_field; [lia|wires; lia|]. intros short rest Hs. cbn [sample_field]. change (2 =? 1) with false. change (2 =? 2) with true. cbn match.
      rewrite read_int64_ok by assumption. reflexivity.
    - reflexivity.
    - intros E. replace t with 0 by lia. reflexivity. }
  apply (eats_unknowns sample_field 2 (fun m u' => mkSample (sm_value m) (sm_ts m) (sm_unk m ++ u')) sm_unk u (mkSample (pos_zero v) t []));
    try assumption; try lia.
  - unk_tac.
  - intros [a b c]. cbn. rewrite app_nil_r. reflexivity.
  - intros [a b c] x y. cbn. rewrite app_assoc. reflexivity.
Qed.
Lemma sample_round m short : sample_ok m -> sample_size m < 2 ^ 32 -> 0 <= short ->
  sample_read short (sample_write m) sample_new = (sample_back m, true).
Proof. intros H Hs H0. apply eats_reads; [assumption|]. apply sample_eats; assumption. Qed.
Lemma sample_size_nonneg m : 0 <= sample_size m.
Proof.
  unfold sample_size. pose proof (optz_nonneg (nonzero_f64 (sm_value m)) 9).
  pose proof (optz_nonneg (negb (sm_ts m =? 0)) _ (int64_size_nonneg 2 (sm_ts m))). pose proof (unknowns_size_nonneg (sm_unk m)). lia.
Qed.

(* ------------------------------------------------------------------ *)
(** * Label *)

Lemma plabel_length m : plabel_ok m -> Z.of_nat (length (plabel_write m)) = plabel_size m.
Proof.
  intros (_ & _ & Hu). unfold plabel_write, plabel_size. rewrite !app_length, !Nat2Z.inj_add.
  rewrite (unknowns_length 2) by (try assumption; lia).
  rewrite (opt_length _ _ _ (string_length 1 (pl_name m) ltac:(lia))), (opt_length _ _ _ (string_length 2 (pl_value m) ltac:(lia))). lia.
Qed.
Lemma eats_string {M} (field : Z -> Z -> Z -> bytes -> M -> M * option bytes) number s (set : bytes -> M) m :
  0 < number < 2 ^ 29 -> utf8 s = true -> Z.of_nat (length s) < 2 ^ 32 ->
  (forall short b, field short number WLen b m = let '(s', r) := read_string WLen b [] in (set s', r)) -> m = set [] ->
  eats field (opt (nonempty s) (w_string number s)) m (set s).
Proof.
  intros Hn Hu Hl Hf Hm. apply eats_opt with (m' := set s).
  - unfold w_string. apply eats_field; [assumption|wires; lia|]. intros short rest Hs. rewrite Hf, read_string_ok by assumption. reflexivity.
  - reflexivity.
  - destruct s; [intros _; symmetry; exact Hm|discriminate].
Qed.
Lemma eats_int64 {M} (field : Z -> Z -> Z -> bytes -> M -> M * option bytes) number z (set : Z -> M) m :
  0 < number < 2 ^ 29 -> i64 z ->
  (forall short b, field short number WVarint b m = let '(z', r) := read_int64 WVarint b 0 in (set z', r)) -> m = set 0 ->
  eats field (opt (negb (z =? 0)) (w_int64 number z)) m (set z).
Proof.
  intros Hn Hz Hf Hm. apply eats_opt with (m' := set z).
  - unfold w_int64. apply eats_field; [assumption|wires; lia|]. intros short rest Hs. rewrite Hf, read_int64_ok by assumption. reflexivity.
  - reflexivity.
  - intros E. replace z with 0 by lia. symmetry; exact Hm.
Qed.
Lemma plabel_eats m : plabel_ok m -> plabel_size m < 2 ^ 32 -> eats plabel_field (plabel_write m) plabel_new m.
Proof.
  intros ((_ & Hn) & (_ & Hv) & Hu) Hsz. destruct m as [n v u]. cbn [pl_name pl_value pl_unk] in *. unfold plabel_write, plabel_size in *. cbn [pl_name pl_value pl_unk] in *.
  pose proof (optz_nonneg (nonempty n) _ (string_size_nonneg 1 n)). pose proof (optz_nonneg (nonempty v) _ (string_size_nonneg 2 v)).
  pose proof (unknowns_size_nonneg u).
  apply eats_app with (m2 := mkPLabel n [] []).
  { apply (eats_string plabel_field 1 n (fun s => mkPLabel s [] [])); try assumption; try lia.
    - apply (optz_string 1); lia.
    - intros short b. cbn [plabel_field plabel_new]. reflexivity.
    - reflexivity. }
  apply eats_app with (m2 := mkPLabel n v []).
  { apply (eats_string plabel_field 2 v (fun s => mkPLabel n s [])); try assumption; try lia.
    - apply (optz_string 2); lia.
    - intros short b. reflexivity.
    - reflexivity. }
  apply (eats_unknowns plabel_field 2 (fun m u' => mkPLabel (pl_name m) (pl_value m) (pl_unk m ++ u')) pl_unk u (mkPLabel n v []));
    try assumption; try lia.
  - unk_tac.
  - intros [a b c]. cbn. rewrite app_nil_r. reflexivity.
  - intros [a b c] x y. cbn. rewrite app_assoc. reflexivity.
Qed.
Lemma plabel_round m short : plabel_ok m -> plabel_size m < 2 ^ 32 -> 0 <= short ->
  plabel_read short (plabel_write m) plabel_new = (m, true).
Proof. intros H Hs H0. apply eats_reads; [assumption|]. apply plabel_eats; assumption. Qed.
Lemma plabel_size_nonneg m : 0 <= plabel_size m.
Proof.
  unfold plabel_size. pose proof (optz_nonneg (nonempty (pl_name m)) _ (string_size_nonneg 1 (pl_name m))).
  pose proof (optz_nonneg (nonempty (pl_value m)) _ (string_size_nonneg 2 (pl_value m))). pose proof (unknowns_size_nonneg (pl_unk m)). lia.
Qed.

(* ------------------------------------------------------------------ *)
(** * Repeated messages *)

Lemma eats_repeated {M A} (field : Z -> Z -> Z -> bytes -> M -> M * option bytes) number (r : reader A) new
    (write : A -> bytes) (size : A -> Z) (back : A -> A) (set : list A -> M) l0 l :
  0 < number < 2 ^ 29 ->
  (forall short wt b l, field short number wt b (set l) = let '(l', rest) := read_repeated r new short wt b l in (set l', rest)) ->
  (forall a, In a l -> Z.of_nat (length (write a)) = size a /\ size a < 2 ^ 32 /\
                       forall short, 0 <= short -> r short (write a) new = (back a, true)) ->
  eats field (concat (map (fun x => w_message number (size x) (write x)) l)) (set l0) (set (l0 ++ map back l)).
Proof.
  intros Hn Hf. revert l0. induction l as [|a l IH]; intros l0 H; cbn [map concat].
  { rewrite app_nil_r. apply eats_nil. }
  apply eats_app with (m2 := set (l0 ++ [back a])).
  - unfold w_message. destruct (H a (or_introl eq_refl)) as (E & Hl & Hr).
    apply eats_field; [assumption|wires; lia|]. intros short rest Hs. rewrite Hf. unfold read_repeated. change (WLen =? WLen) with true. cbn match.
    rewrite (merge_message_ok r short (write a) (size a) new (back a)) by assumption. reflexivity.
  - specialize (IH (l0 ++ [back a])). rewrite <- app_assoc in IH. apply IH. intros b Hb. apply H. right. exact Hb.
Qed.
Lemma repeated_length {A} number (write : A -> bytes) (size : A -> Z) l : 0 < number < 16 ->
  (forall x, In x l -> Z.of_nat (length (write x)) = size x) ->
  Z.of_nat (length (concat (map (fun x => w_message number (size x) (write x)) l))) = sum (map (fun x => message_size (size x)) l).
Proof. intros Hn H. apply concat_length. intros x Hx. apply message_length; auto. Qed.
Lemma repeated_size {A} (size : A -> Z) l x : (forall x, 0 <= size x) -> In x l -> size x < sum (map (fun x => message_size (size x)) l).
Proof.
  intros H Hx. pose proof (message_size_lt (size x) (H x)). assert (message_size (size x) <= sum (map (fun x => message_size (size x)) l)); [|lia].
  apply (sum_in (fun x => message_size (size x))); [|assumption]. intros y _. pose proof (message_size_lt (size y) (H y)). pose proof (H y). lia.
Qed.
Lemma repeated_nonneg {A} (size : A -> Z) l : (forall x, 0 <= size x) -> 0 <= sum (map (fun x => message_size (size x)) l).
Proof. intros H. apply sum_nonneg. intros y _. pose proof (message_size_lt (size y) (H y)). pose proof (H y). lia. Qed.

(* ------------------------------------------------------------------ *)
(** * TimeSeries *)

Lemma pseries_length m : pseries_ok m -> Z.of_nat (length (pseries_write m)) = pseries_size m.
Proof.
  intros (Hl & Hs & Hu). rewrite Forall_forall in Hl, Hs. unfold pseries_write, pseries_size. rewrite !app_length, !Nat2Z.inj_add.
  rewrite (unknowns_length 2) by (try assumption; lia).
  rewrite (repeated_length 1 plabel_write plabel_size) by (try lia; intros x Hx; apply plabel_length; auto).
  rewrite (repeated_length 2 sample_write sample_size) by (try lia; intros x Hx; apply sample_length; auto). lia.
Qed.
Lemma pseries_eats m : pseries_ok m -> pseries_size m < 2 ^ 32 -> eats pseries_field (pseries_write m) pseries_new (pseries_back m).
Proof.
  intros (Hl & Hs & Hu) Hsz. destruct m as [ls ss u]. rewrite Forall_forall in Hl, Hs. unfold pseries_write, pseries_size, pseries_back in *.
  cbn [ps_labels ps_samples ps_unk] in *.
  pose proof (repeated_nonneg plabel_size ls plabel_size_nonneg). pose proof (repeated_nonneg sample_size ss sample_size_nonneg).
  pose proof (unknowns_size_nonneg u).
  apply eats_app with (m2 := mkPSeries ls [] []).
  { pose proof (eats_repeated pseries_field 1 plabel_read plabel_new plabel_write plabel_size (fun x => x)
                  (fun l => mkPSeries l [] []) [] ls ltac:(lia)) as X.
    rewrite map_id in X. apply X; clear X.
    - intros short wt b l. reflexivity.
    - intros a Ha. pose proof (repeated_size plabel_size ls a plabel_size_nonneg Ha).
      split; [apply plabel_length; auto|]. split; [lia|]. intros short Hsh. apply plabel_round; auto. lia. }
  apply eats_app with (m2 := mkPSeries ls (map sample_back ss) []).
  { apply (eats_repeated pseries_field 2 sample_read sample_new sample_write sample_size sample_back
                  (fun l => mkPSeries ls l []) [] ss); [lia| |].
    - intros short wt b l. reflexivity.
    - intros a Ha. pose proof (repeated_size sample_size ss a sample_size_nonneg Ha).
      split; [apply sample_length; auto|]. split; [lia|]. intros short Hsh. apply sample_round; auto. lia. }
  apply (eats_unknowns pseries_field 2 (fun m u' => mkPSeries (ps_labels m) (ps_samples m) (ps_unk m ++ u')) ps_unk u
           (mkPSeries ls (map sample_back ss) [])); try assumption; try lia.
  - unk_tac.
  - intros [a b c]. cbn. rewrite app_nil_r. reflexivity.
  - intros [a b c] x y. cbn. rewrite app_assoc. reflexivity.
Qed.
Lemma pseries_round m short : pseries_ok m -> pseries_size m < 2 ^ 32 -> 0 <= short ->
  pseries_read short (pseries_write m) pseries_new = (pseries_back m, true).
Proof. intros H Hs H0. apply eats_reads; [assumption|]. apply pseries_eats; assumption. Qed.
Lemma pseries_size_nonneg m : 0 <= pseries_size m.
Proof.
  unfold pseries_size. pose proof (repeated_nonneg plabel_size (ps_labels m) plabel_size_nonneg).
  pose proof (repeated_nonneg sample_size (ps_samples m) sample_size_nonneg). pose proof (unknowns_size_nonneg (ps_unk m)). lia.
Qed.

(* ------------------------------------------------------------------ *)
(** * LabelMatcher, ReadHints, Query *)

Lemma enum_length n z : 0 <= n -> 0 <= z < 2 ^ 31 -> Z.of_nat (length (w_enum n z)) = enum_size n z.
Proof.
  intros H Hz. unfold w_enum, enum_size. rewrite app_length, Nat2Z.inj_add, tag_length by (unfold WVarint; lia).
  unfold varint64, varint32_size. rewrite varint_length. f_equal. unfold wrapu. rewrite Z.mod_small by lia.
  clear H. change 10%nat with (5 + 5)%nat. assert (G: forall k n z, 0 <= z < 2 ^ (7 * Z.of_nat n) -> (0 < n)%nat -> varint_size (n + k) z = varint_size n z).
  { intros k m. induction m as [|m IH]; intros y Hy Hm; [lia|]. cbn [Nat.add varint_size]. destruct (y <? 128) eqn:E; [reflexivity|].
    destruct m as [|m]. { exfalso. change (2 ^ (7 * Z.of_nat 1)) with 128 in Hy. lia. }
    rewrite IH; [reflexivity| |lia]. split; [apply Z.div_pos; lia|]. apply Z.div_lt_upper_bound; [lia|].
    replace (7 * Z.of_nat (S (S m))) with (7 + 7 * Z.of_nat (S m)) in Hy by lia. rewrite Z.pow_add_r in Hy by lia. change (2 ^ 7) with 128 in Hy. lia. }
  apply G; [|lia]. change (2 ^ (7 * Z.of_nat 5)) with (2 ^ 35). lia.
Qed.
Lemma read_int32_ok z rest : 0 <= z < 2 ^ 31 -> read_int32 (varint64 (wrapu 64 z) ++ rest) = Some (z, rest).
Proof.
  intros H. unfold read_int32, read_varint32. rewrite read_varint64_ok by apply wrapu_range.
  unfold wrapu. rewrite (Z.mod_small z (2 ^ 64)) by lia. rewrite (Z.mod_small z (2 ^ 32)) by lia.
  unfold wraps. rewrite Z.mod_small by lia. change (32 - 1) with 31. replace (z <? 2 ^ 31) with true by lia. reflexivity.
Qed.
Lemma mtype_range t : 0 <= mtype_value t < 2 ^ 31.
Proof. destruct t; cbn; lia. Qed.
Lemma enum_size_nonneg n z : 0 <= enum_size n z.
Proof. unfold enum_size, tag_size, varint32_size. pose proof (varint_size_nonneg 5 (n * 8)). pose proof (varint_size_nonneg 5 z). lia. Qed.

Lemma matcher_length m : matcher_ok m -> Z.of_nat (length (matcher_write m)) = matcher_size m.
Proof.
  intros (_ & _ & Hu). unfold matcher_write, matcher_size. rewrite !app_length, !Nat2Z.inj_add.
  rewrite (unknowns_length 3) by (try assumption; lia).
  rewrite (opt_length _ _ _ (enum_length 1 (mtype_value (mt_type m)) ltac:(lia) (mtype_range _))).
  rewrite (opt_length _ _ _ (string_length 2 (mt_name m) ltac:(lia))), (opt_length _ _ _ (string_length 3 (mt_value m) ltac:(lia))). lia.
Qed.
Lemma matcher_eats m : matcher_ok m -> matcher_size m < 2 ^ 32 -> eats matcher_field (matcher_write m) matcher_new m.
Proof.
  intros ((_ & Hn) & (_ & Hv) & Hu) Hsz. destruct m as [t n v u]. unfold matcher_write, matcher_size in *. cbn [mt_type mt_name mt_value mt_unk] in *.
  pose proof (optz_nonneg (nonempty n) _ (string_size_nonneg 2 n)). pose proof (optz_nonneg (nonempty v) _ (string_size_nonneg 3 v)).
  pose proof (unknowns_size_nonneg u). pose proof (optz_nonneg (not_eq t) _ (enum_size_nonneg 1 (mtype_value t))).
  apply eats_app with (m2 := mkMatcher t [] [] []).
  { apply eats_opt with (m' := mkMatcher t [] [] []).
    - unfold w_enum. apply eats_field; [lia|wires; lia|]. intros short rest Hs. cbn [matcher_field matcher_new].
      change (1 =? 1) with true. change (WVarint =? WVarint) with true. cbn match. rewrite read_int32_ok by apply mtype_range.
      destruct t; reflexivity.
    - reflexivity.
    - destruct t; try discriminate. reflexivity. }
  apply eats_app with (m2 := mkMatcher t n [] []).
  { apply (eats_string matcher_field 2 n (fun s => mkMatcher t s [] [])); try assumption; try lia.
    - apply (optz_string 2); lia.
    - intros short b. reflexivity.
    - reflexivity. }
  apply eats_app with (m2 := mkMatcher t n v []).
  { apply (eats_string matcher_field 3 v (fun s => mkMatcher t n s [])); try assumption; try lia.
    - apply (optz_string 3); lia.
    - intros short b. reflexivity.
    - reflexivity. }
  apply (eats_unknowns matcher_field 3 (fun m u' => mkMatcher (mt_type m) (mt_name m) (mt_value m) (mt_unk m ++ u')) mt_unk u
           (mkMatcher t n v [])); try assumption; try lia.
  - unk_tac.
  - intros [a b c d]. cbn. rewrite app_nil_r. reflexivity.
  - intros [a b c d] x y. cbn. rewrite app_assoc. reflexivity.
Qed.
Lemma matcher_round m short : matcher_ok m -> matcher_size m < 2 ^ 32 -> 0 <= short ->
  matcher_read short (matcher_write m) matcher_new = (m, true).
Proof. intros H Hs H0. apply eats_reads; [assumption|]. apply matcher_eats; assumption. Qed.
Lemma matcher_size_nonneg m : 0 <= matcher_size m.
Proof.
  unfold matcher_size. pose proof (optz_nonneg (nonempty (mt_name m)) _ (string_size_nonneg 2 (mt_name m))).
  pose proof (optz_nonneg (nonempty (mt_value m)) _ (string_size_nonneg 3 (mt_value m))). pose proof (unknowns_size_nonneg (mt_unk m)).
  pose proof (optz_nonneg (not_eq (mt_type m)) _ (enum_size_nonneg 1 (mtype_value (mt_type m)))). lia.
Qed.

Lemma hints_length m : hints_ok m -> Z.of_nat (length (hints_write m)) = hints_size m.
Proof.
  intros (_ & _ & _ & _ & Hu). unfold hints_write, hints_size. rewrite !app_length, !Nat2Z.inj_add.
  rewrite (unknowns_length 4) by (try assumption; lia).
  rewrite (opt_length _ _ _ (int64_length 1 (hi_step m) ltac:(lia))), (opt_length _ _ _ (string_length 2 (hi_func m) ltac:(lia))),
    (opt_length _ _ _ (int64_length 3 (hi_start m) ltac:(lia))), (opt_length _ _ _ (int64_length 4 (hi_end m) ltac:(lia))). lia.
Qed.
Lemma hints_eats m : hints_ok m -> hints_size m < 2 ^ 32 -> eats hints_field (hints_write m) hints_new m.
Proof.
  intros (H1 & (_ & H2) & H3 & H4 & Hu) Hsz. destruct m as [st f s e u]. unfold hints_write, hints_size in *. cbn [hi_step hi_func hi_start hi_end hi_unk] in *.
  pose proof (optz_nonneg (nonempty f) _ (string_size_nonneg 2 f)). pose proof (optz_nonneg (negb (st =? 0)) _ (int64_size_nonneg 1 st)).
  pose proof (optz_nonneg (negb (s =? 0)) _ (int64_size_nonneg 3 s)). pose proof (optz_nonneg (negb (e =? 0)) _ (int64_size_nonneg 4 e)).
  pose proof (unknowns_size_nonneg u).
  apply eats_app with (m2 := mkHints st [] 0 0 []).
  { apply (eats_int64 hints_field 1 st (fun z => mkHints z [] 0 0 [])); try assumption; try lia; reflexivity. }
  apply eats_app with (m2 := mkHints st f 0 0 []).
  { apply (eats_string hints_field 2 f (fun z => mkHints st z 0 0 [])); try assumption; try lia; try reflexivity. apply (optz_string 2); lia. }
  apply eats_app with (m2 := mkHints st f s 0 []).
  { apply (eats_int64 hints_field 3 s (fun z => mkHints st f z 0 [])); try assumption; try lia; reflexivity. }
  apply eats_app with (m2 := mkHints st f s e []).
  { apply (eats_int64 hints_field 4 e (fun z => mkHints st f s z [])); try assumption; try lia; reflexivity. }
  apply (eats_unknowns hints_field 4 (fun m u' => mkHints (hi_step m) (hi_func m) (hi_start m) (hi_end m) (hi_unk m ++ u')) hi_unk u
           (mkHints st f s e [])); try assumption; try lia.
  - unk_tac.
  - intros [a b c d g]. cbn. rewrite app_nil_r. reflexivity.
  - intros [a b c d g] x y. cbn. rewrite app_assoc. reflexivity.
Qed.
Lemma hints_round m short : hints_ok m -> hints_size m < 2 ^ 32 -> 0 <= short ->
  hints_read short (hints_write m) hints_new = (m, true).
Proof. intros H Hs H0. apply eats_reads; [assumption|]. apply hints_eats; assumption. Qed.
Lemma hints_size_nonneg m : 0 <= hints_size m.
Proof.
  unfold hints_size. pose proof (optz_nonneg (nonempty (hi_func m)) _ (string_size_nonneg 2 (hi_func m))).
  pose proof (optz_nonneg (negb (hi_step m =? 0)) _ (int64_size_nonneg 1 (hi_step m))).
  pose proof (optz_nonneg (negb (hi_start m =? 0)) _ (int64_size_nonneg 3 (hi_start m))).
  pose proof (optz_nonneg (negb (hi_end m =? 0)) _ (int64_size_nonneg 4 (hi_end m))). pose proof (unknowns_size_nonneg (hi_unk m)). lia.
Qed.

Definition hopt_size (h : option hints) : Z := match h with Some h => message_size (hints_size h) | None => 0 end.
Lemma hopt_nonneg h : 0 <= hopt_size h.
Proof. destruct h as [h|]; [|reflexivity]. cbn. pose proof (hints_size_nonneg h). pose proof (message_size_lt (hints_size h)). lia. Qed.
Lemma pquery_length m : pquery_ok m -> Z.of_nat (length (pquery_write m)) = pquery_size m.
Proof.
  intros (_ & _ & Hm & Hh & Hu). rewrite Forall_forall in Hm. unfold pquery_write, pquery_size. rewrite !app_length, !Nat2Z.inj_add.
  rewrite (unknowns_length 4) by (try assumption; lia).
  rewrite (repeated_length 3 matcher_write matcher_size) by (try lia; intros x Hx; apply matcher_length; auto).
  rewrite (opt_length _ _ _ (int64_length 1 (pq_start m) ltac:(lia))), (opt_length _ _ _ (int64_length 2 (pq_end m) ltac:(lia))).
  destruct (pq_hints m) as [h|]; [rewrite (message_length 4 (hints_size h)) by (try lia; apply hints_length; assumption)|cbn [length Z.of_nat]]; lia.
Qed.
Lemma pquery_eats m : pquery_ok m -> pquery_size m < 2 ^ 32 -> eats pquery_field (pquery_write m) pquery_new m.
Proof.
  intros (Hs & He & Hm & Hh & Hu) Hsz. rewrite Forall_forall in Hm. destruct m as [s e ms h u]. unfold pquery_write, pquery_size in *.
  cbn [pq_start pq_end pq_matchers pq_hints pq_unk] in *. fold (hopt_size h) in Hsz.
  pose proof (optz_nonneg (negb (s =? 0)) _ (int64_size_nonneg 1 s)). pose proof (optz_nonneg (negb (e =? 0)) _ (int64_size_nonneg 2 e)).
  pose proof (repeated_nonneg matcher_size ms matcher_size_nonneg). pose proof (hopt_nonneg h). pose proof (unknowns_size_nonneg u).
  apply eats_app with (m2 := mkPQuery s 0 [] None []).
  { apply (eats_int64 pquery_field 1 s (fun z => mkPQuery z 0 [] None [])); try assumption; try lia; reflexivity. }
  apply eats_app with (m2 := mkPQuery s e [] None []).
  { apply (eats_int64 pquery_field 2 e (fun z => mkPQuery s z [] None [])); try assumption; try lia; reflexivity. }
  apply eats_app with (m2 := mkPQuery s e ms None []).
  { pose proof (eats_repeated pquery_field 3 matcher_read matcher_new matcher_write matcher_size (fun x => x)
                  (fun l => mkPQuery s e l None []) [] ms ltac:(lia)) as X.
    rewrite map_id in X. apply X; clear X.
    - intros short wt b l. reflexivity.
    - intros a Ha. pose proof (repeated_size matcher_size ms a matcher_size_nonneg Ha).
      split; [apply matcher_length; auto|]. split; [lia|]. intros short Hsh. apply matcher_round; auto. lia. }
  apply eats_app with (m2 := mkPQuery s e ms h []).
  { destruct h as [h|]; [|apply eats_nil]. cbn [hopt_size] in *. pose proof (hints_size_nonneg h). pose proof (message_size_lt (hints_size h)).
    unfold w_message. apply eats_field; [lia|wires; lia|]. intros short rest Hsh. cbn [pquery_field].
    change (4 =? 1) with false. change (4 =? 2) with false. change (4 =? 3) with false. change (4 =? 4) with true. cbn match.
    unfold read_singular. change (WLen =? WLen) with true. cbn match.
    rewrite (merge_message_ok hints_read short (hints_write h) (hints_size h) hints_new h); try assumption; try lia; [reflexivity| |].
    - apply hints_length; assumption.
    - intros short' Hs'. apply hints_round; try assumption. lia. }
  apply (eats_unknowns pquery_field 4 (fun m u' => mkPQuery (pq_start m) (pq_end m) (pq_matchers m) (pq_hints m) (pq_unk m ++ u')) pq_unk u
           (mkPQuery s e ms h [])); try assumption; try lia.
  - unk_tac.
  - intros [a b c d g]. cbn. rewrite app_nil_r. reflexivity.
  - intros [a b c d g] x y. cbn. rewrite app_assoc. reflexivity.
Qed.
Lemma pquery_round m short : pquery_ok m -> pquery_size m < 2 ^ 32 -> 0 <= short ->
  pquery_read short (pquery_write m) pquery_new = (m, true).
Proof. intros H Hs H0. apply eats_reads; [assumption|]. apply pquery_eats; assumption. Qed.
Lemma pquery_size_nonneg m : 0 <= pquery_size m.
Proof.
  unfold pquery_size. fold (hopt_size (pq_hints m)). pose proof (hopt_nonneg (pq_hints m)).
  pose proof (optz_nonneg (negb (pq_start m =? 0)) _ (int64_size_nonneg 1 (pq_start m))).
  pose proof (optz_nonneg (negb (pq_end m =? 0)) _ (int64_size_nonneg 2 (pq_end m))).
  pose proof (repeated_nonneg matcher_size (pq_matchers m) matcher_size_nonneg). pose proof (unknowns_size_nonneg (pq_unk m)). lia.
Qed.

(* ------------------------------------------------------------------ *)
(** * Requests and responses *)

Lemma write_request_length m : write_request_ok m -> Z.of_nat (length (write_request_write m)) = write_request_size m.
Proof.
  intros (Hl & Hu). rewrite Forall_forall in Hl. unfold write_request_write, write_request_size. rewrite !app_length, !Nat2Z.inj_add.
  rewrite (unknowns_length 1) by (try assumption; lia).
  rewrite (repeated_length 1 pseries_write pseries_size) by (try lia; intros x Hx; apply pseries_length; auto). lia.
Qed.
(* read after what is there already *)
Lemma write_request_eats m l0 u0 : write_request_ok m -> write_request_size m < 2 ^ 32 ->
  eats write_request_field (write_request_write m) (mkWriteReq l0 u0) (mkWriteReq (l0 ++ map pseries_back (wq_series m)) (u0 ++ wq_unk m)).
Proof.
  intros (Hl & Hu) Hsz. destruct m as [l u]. rewrite Forall_forall in Hl. unfold write_request_write, write_request_size in *.
  cbn [wq_series wq_unk] in *. pose proof (repeated_nonneg pseries_size l pseries_size_nonneg). pose proof (unknowns_size_nonneg u).
  apply eats_app with (m2 := mkWriteReq (l0 ++ map pseries_back l) u0).
  { apply (eats_repeated write_request_field 1 pseries_read pseries_new pseries_write pseries_size pseries_back
                  (fun l => mkWriteReq l u0) l0 l); [lia| |].
    - intros short wt b l'. reflexivity.
    - intros a Ha. pose proof (repeated_size pseries_size l a pseries_size_nonneg Ha).
      split; [apply pseries_length; auto|]. split; [lia|]. intros short Hsh. apply pseries_round; auto. lia. }
  apply (eats_unknowns write_request_field 1 (fun m u' => mkWriteReq (wq_series m) (wq_unk m ++ u')) wq_unk u
           (mkWriteReq (l0 ++ map pseries_back l) u0)); try assumption; try lia.
  - unk_tac.
  - intros [a b]. cbn. rewrite app_nil_r. reflexivity.
  - intros [a b] x y. cbn. rewrite app_assoc. reflexivity.
Qed.
Lemma query_result_length m : query_result_ok m -> Z.of_nat (length (query_result_write m)) = query_result_size m.
Proof.
  intros (Hl & Hu). rewrite Forall_forall in Hl. unfold query_result_write, query_result_size. rewrite !app_length, !Nat2Z.inj_add.
  rewrite (unknowns_length 1) by (try assumption; lia).
  rewrite (repeated_length 1 pseries_write pseries_size) by (try lia; intros x Hx; apply pseries_length; auto). lia.
Qed.
Lemma query_result_eats m : query_result_ok m -> query_result_size m < 2 ^ 32 ->
  eats query_result_field (query_result_write m) query_result_new (query_result_back m).
Proof.
  intros (Hl & Hu) Hsz. destruct m as [l u]. rewrite Forall_forall in Hl. unfold query_result_write, query_result_size, query_result_back in *.
  cbn [qr_series qr_unk] in *. pose proof (repeated_nonneg pseries_size l pseries_size_nonneg). pose proof (unknowns_size_nonneg u).
  apply eats_app with (m2 := mkQResult (map pseries_back l) []).
  { apply (eats_repeated query_result_field 1 pseries_read pseries_new pseries_write pseries_size pseries_back
                  (fun l => mkQResult l []) [] l); [lia| |].
    - intros short wt b l'. reflexivity.
    - intros a Ha. pose proof (repeated_size pseries_size l a pseries_size_nonneg Ha).
      split; [apply pseries_length; auto|]. split; [lia|]. intros short Hsh. apply pseries_round; auto. lia. }
  apply (eats_unknowns query_result_field 1 (fun m u' => mkQResult (qr_series m) (qr_unk m ++ u')) qr_unk u
           (mkQResult (map pseries_back l) [])); try assumption; try lia.
  - unk_tac.
  - intros [a b]. cbn. rewrite app_nil_r. reflexivity.
  - intros [a b] x y. cbn. rewrite app_assoc. reflexivity.
Qed.
Lemma query_result_size_nonneg m : 0 <= query_result_size m.
Proof. unfold query_result_size. pose proof (repeated_nonneg pseries_size (qr_series m) pseries_size_nonneg). pose proof (unknowns_size_nonneg (qr_unk m)). lia. Qed.
Lemma read_response_length m : read_response_ok m -> Z.of_nat (length (read_response_write m)) = read_response_size m.
Proof.
  intros (Hl & Hu). rewrite Forall_forall in Hl. unfold read_response_write, read_response_size. rewrite !app_length, !Nat2Z.inj_add.
  rewrite (unknowns_length 1) by (try assumption; lia).
  rewrite (repeated_length 1 query_result_write query_result_size) by (try lia; intros x Hx; apply query_result_length; auto). lia.
Qed.
Lemma read_response_eats m : read_response_ok m -> read_response_size m < 2 ^ 32 ->
  eats read_response_field (read_response_write m) read_response_new (read_response_back m).
Proof.
  intros (Hl & Hu) Hsz. destruct m as [l u]. rewrite Forall_forall in Hl. unfold read_response_write, read_response_size, read_response_back in *.
  cbn [rp_results rp_unk] in *. pose proof (repeated_nonneg query_result_size l query_result_size_nonneg). pose proof (unknowns_size_nonneg u).
  apply eats_app with (m2 := mkReadResp (map query_result_back l) []).
  { apply (eats_repeated read_response_field 1 query_result_read query_result_new query_result_write query_result_size query_result_back
                  (fun l => mkReadResp l []) [] l); [lia| |].
    - intros short wt b l'. reflexivity.
    - intros a Ha. pose proof (repeated_size query_result_size l a query_result_size_nonneg Ha).
      split; [apply query_result_length; auto|]. split; [lia|]. intros short Hsh. apply eats_reads; [assumption|]. apply query_result_eats; auto. lia. }
  apply (eats_unknowns read_response_field 1 (fun m u' => mkReadResp (rp_results m) (rp_unk m ++ u')) rp_unk u
           (mkReadResp (map query_result_back l) [])); try assumption; try lia.
  - unk_tac.
  - intros [a b]. cbn. rewrite app_nil_r. reflexivity.
  - intros [a b] x y. cbn. rewrite app_assoc. reflexivity.
Qed.
Lemma rtype_range t : 0 <= rtype_value t < 2 ^ 31.
Proof. destruct t; cbn; lia. Qed.
Lemma read_request_length m : read_request_ok m -> Z.of_nat (length (read_request_write m)) = read_request_size m.
Proof.
  intros (Hl & Hu). rewrite Forall_forall in Hl. unfold read_request_write, read_request_size. rewrite !app_length, !Nat2Z.inj_add.
  rewrite (unknowns_length 2) by (try assumption; lia).
  rewrite (repeated_length 1 pquery_write pquery_size) by (try lia; intros x Hx; apply pquery_length; auto).
  rewrite (concat_length (fun t => w_enum 2 (rtype_value t)) (fun t => enum_size 2 (rtype_value t))).
  2:{ intros x _. apply enum_length; [lia|apply rtype_range]. } lia.
Qed.
Lemma read_request_eats m : read_request_ok m -> read_request_size m < 2 ^ 32 ->
  eats read_request_field (read_request_write m) read_request_new m.
Proof.
  intros (Hl & Hu) Hsz. destruct m as [l ts u]. rewrite Forall_forall in Hl. unfold read_request_write, read_request_size in *.
  cbn [rq_queries rq_types rq_unk] in *. pose proof (repeated_nonneg pquery_size l pquery_size_nonneg). pose proof (unknowns_size_nonneg u).
  assert (0 <= sum (map (fun t => enum_size 2 (rtype_value t)) ts)).
  { apply (sum_nonneg (fun t => enum_size 2 (rtype_value t))). intros y _. apply enum_size_nonneg. }
  apply eats_app with (m2 := mkReadReq l [] []).
  { pose proof (eats_repeated read_request_field 1 pquery_read pquery_new pquery_write pquery_size (fun x => x)
                  (fun l => mkReadReq l [] []) [] l ltac:(lia)) as X.
    rewrite map_id in X. apply X; clear X.
    - intros short wt b l'. reflexivity.
    - intros a Ha. pose proof (repeated_size pquery_size l a pquery_size_nonneg Ha).
      split; [apply pquery_length; auto|]. split; [lia|]. intros short Hsh. apply pquery_round; auto. lia. }
  apply eats_app with (m2 := mkReadReq l ts []).
  { assert (G: forall ts ts0, eats read_request_field (concat (map (fun t => w_enum 2 (rtype_value t)) ts)) (mkReadReq l ts0 []) (mkReadReq l (ts0 ++ ts) [])).
    { clear. induction ts as [|t ts IH]; intros ts0; cbn [map concat]. { rewrite app_nil_r. apply eats_nil. }
      apply eats_app with (m2 := mkReadReq l (ts0 ++ [t]) []).
      - unfold w_enum. apply eats_field; [lia|wires; lia|]. intros short rest Hs. cbn [read_request_field].
        change (2 =? 1) with false. change (2 =? 2) with true. change (WVarint =? WLen) with false. change (WVarint =? WVarint) with true. cbn match.
        rewrite read_int32_ok by apply rtype_range. unfold add_type. destruct t; reflexivity.
      - specialize (IH (ts0 ++ [t])). rewrite <- app_assoc in IH. exact IH. }
    apply (G ts []). }
  apply (eats_unknowns read_request_field 2 (fun m u' => mkReadReq (rq_queries m) (rq_types m) (rq_unk m ++ u')) rq_unk u
           (mkReadReq l ts [])); try assumption; try lia.
  - unk_tac.
  - intros [a b c]. cbn. rewrite app_nil_r. reflexivity.
  - intros [a b c] x y. cbn. rewrite app_assoc. reflexivity.
Qed.

(* ------------------------------------------------------------------ *)
(** * Whole bodies *)

Lemma merge_eats {M} (field : Z -> Z -> Z -> bytes -> M -> M * option bytes) b m m' :
  Z.of_nat (length b) < 2 ^ 64 -> eats field b m m' -> merge_from (reads field) b m = (m', true).
Proof. intros Hl H. unfold merge_from. apply eats_reads; [lia|exact H]. Qed.
Lemma write_request_round m : write_request_ok m -> write_request_size m < 2 ^ 32 ->
  merge_from write_request_read (write_request_write m) write_request_new = (write_request_back m, true).
Proof.
  intros H Hs. apply merge_eats; [rewrite write_request_length by assumption; lia|].
  exact (write_request_eats m [] [] H Hs).
Qed.
Lemma read_request_round m : read_request_ok m -> read_request_size m < 2 ^ 32 ->
  merge_from read_request_read (read_request_write m) read_request_new = (m, true).
Proof. intros H Hs. apply merge_eats; [rewrite read_request_length by assumption; lia|]. exact (read_request_eats m H Hs). Qed.
Lemma read_response_round m : read_response_ok m -> read_response_size m < 2 ^ 32 ->
  merge_from read_response_read (read_response_write m) read_response_new = (read_response_back m, true).
Proof. intros H Hs. apply merge_eats; [rewrite read_response_length by assumption; lia|]. exact (read_response_eats m H Hs). Qed.
