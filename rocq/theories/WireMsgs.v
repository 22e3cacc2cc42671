(* Every message reader accepts exactly the encodings of its messages. *)
From Coq Require Import ZifyBool ZifyNat.
From Verif Require Import Rust Proto Stream WireSpec WireProofs.

(* ------------------------------------------------------------------ *)
(** * The values of known fields *)

Lemma int64_as d short n wt b old t rest : kind_of d n = Some KNum ->
  (read_int64 wt b old = (t, Some rest) <-> exists p z, b = p ++ rest /\ value_in d short n wt p rest (VNum z) /\ t = wraps 64 z).
Proof.
  intros K. unfold read_int64. destruct (Z.eqb_spec wt WVarint) as [->|N].
  - split.
    + destruct (read_varint64 b) as [[z b']|] eqn:E; [|discriminate]. apply read_number in E as (p & -> & H). intros Q.
      assert (t = wraps 64 z /\ rest = b') as [-> ->] by (split; congruence). exists p, z. split; [reflexivity|]. split; [|reflexivity].
      apply value_num_iff; [assumption|]. eauto.
    + intros (p & z & -> & V & ->). apply value_num_iff in V as (_ & z' & H & E); [|assumption]. assert (z' = z) as -> by congruence.
      assert (Q: read_varint64 (p ++ rest) = Some (z, rest)) by (apply read_number; eauto). now rewrite Q.
  - split; [discriminate|]. intros (p & z & _ & V & _). apply value_num_iff in V as (-> & _); [|assumption]. now destruct N.
Qed.
Lemma int32_as d short n wt b z rest : kind_of d n = Some KNum \/ kind_of d n = Some KNums -> wt = 0 ->
  (read_int32 b = Some (z, rest) <-> exists p y, b = p ++ rest /\ value_in d short n wt p rest (VNum y) /\ z = int32 y).
Proof.
  intros K ->. unfold read_int32, read_varint32. split.
  - destruct (read_varint64 b) as [[y b']|] eqn:E; [|discriminate]. apply read_number in E as (p & -> & H). intros Q.
    assert (z = int32 y /\ rest = b') as [-> ->] by (unfold int32; split; congruence). exists p, y. split; [reflexivity|]. split; [|reflexivity]. now constructor.
  - intros (p & y & -> & V & ->). assert (Q: read_varint64 (p ++ rest) = Some (y, rest)); [|now rewrite Q].
    apply read_number. exists p. split; [reflexivity|]. inversion V; subst; try assumption; destruct K; congruence.
Qed.
Lemma double_as d short n wt b old t rest : kind_of d n = Some K64 ->
  (read_double wt b old = (t, Some rest) <-> exists p z, b = p ++ rest /\ value_in d short n wt p rest (V64 z) /\ t = z).
Proof.
  intros K. unfold read_double. destruct (Z.eqb_spec wt WFixed64) as [->|N].
  - split.
    + destruct (read_fixed 8 b) as [[z b']|] eqn:E; [|discriminate]. apply read_fixed_iff in E as (p & -> & H & ->). intros Q.
      assert (t = little p /\ rest = b') as [-> ->] by (split; congruence). exists p, (little p). split; [reflexivity|]. split; [|reflexivity].
      apply value_64_iff; auto.
    + intros (p & z & -> & V & ->). apply value_64_iff in V as (_ & H & E); [|assumption]. assert (z = little p) as -> by congruence.
      assert (Q: read_fixed 8 (p ++ rest) = Some (little p, rest)) by (apply read_fixed_iff; eauto). now rewrite Q.
  - split; [discriminate|]. intros (p & z & _ & V & _). apply value_64_iff in V as (-> & _); [|assumption]. now destruct N.
Qed.
Lemma data_as d short n wt b old t rest : kind_of d n = Some KData ->
  (read_data wt b old = (t, Some rest) <-> exists p x, b = p ++ rest /\ value_in d short n wt p rest (VBytes x) /\ t = x).
Proof.
  intros K. unfold read_data. destruct (Z.eqb_spec wt WLen) as [->|N].
  - pose proof (read_block b) as R. split.
    + destruct (read_varint32 b) as [[len b']|]; [|discriminate]. destruct (read_bytes len b') as [[x b'']|]; [|discriminate]. intros Q.
      assert (t = x /\ rest = b'') as [-> ->] by (split; congruence). destruct (proj1 (R x b'') eq_refl) as (p & -> & H).
      exists p, x. split; [reflexivity|]. split; [|reflexivity]. apply value_data_iff; [assumption|]. eauto.
    + intros (p & x & -> & V & ->). apply value_data_iff in V as (_ & x' & H & E); [|assumption]. assert (x' = x) as -> by congruence.
      specialize (proj2 (R x rest) (ex_intro _ p (conj eq_refl H))). destruct (read_varint32 (p ++ rest)) as [[len b']|]; [|discriminate]. intros ->. reflexivity.
  - split; [discriminate|]. intros (p & x & _ & V & _). apply value_data_iff in V as (-> & _); [|assumption]. now destruct N.
Qed.
Lemma text_as d short n wt b old t rest : kind_of d n = Some KText -> Forall is_byte b ->
  (read_string wt b old = (t, Some rest) <-> exists p x, b = p ++ rest /\ value_in d short n wt p rest (VBytes x) /\ t = x).
Proof.
  intros K Hb. unfold read_string. destruct (Z.eqb_spec wt WLen) as [->|N].
  - pose proof (read_block b) as R.
    assert (U: forall p x, b = p ++ rest -> block_in p x -> (utf8 x = true <-> unicode x)).
    { intros p x E (l & len & -> & _). apply utf8_iff. rewrite E in Hb. apply Forall_app in Hb as [Hb _]. now apply Forall_app in Hb. }
    split.
    + destruct (read_varint32 b) as [[len b']|]; [|discriminate]. destruct (read_bytes len b') as [[x b'']|]; [|discriminate].
      destruct (utf8 x) eqn:Eu; [|discriminate]. intros Q.
      assert (t = x /\ b'' = rest) as [-> ->] by (split; congruence). destruct (proj1 (R x rest) eq_refl) as (p & -> & H).
      exists p, x. split; [reflexivity|]. split; [|reflexivity]. apply value_text_iff; [assumption|]. split; [reflexivity|]. exists x. split; [assumption|]. split; [|reflexivity].
      now apply (U p).
    + intros (p & x & -> & V & ->). apply value_text_iff in V as (_ & x' & H & Hu & E); [|assumption]. assert (x' = x) as -> by congruence.
      specialize (proj2 (R x rest) (ex_intro _ p (conj eq_refl H))). destruct (read_varint32 (p ++ rest)) as [[len b']|]; [|discriminate]. intros ->.
      apply (U p x eq_refl H) in Hu. now rewrite Hu.
  - split; [discriminate|]. intros (p & x & _ & V & _). apply value_text_iff in V as (-> & _); [|assumption]. now destruct N.
Qed.
Section MSG.
  Context {A : Type}.
  Variables (r : reader A) (d' : desc) (of : list (Z * fval) -> A) (new : A).
  Hypothesis R : reads_as r d' of.
  Hypothesis N0 : new = of [].
  Lemma message_as d short n b a rest : kind_of d n = Some (KMsg d') -> 0 <= short -> Forall is_byte b ->
    (merge_message r short b new = (a, Some rest) <-> exists p fs, b = p ++ rest /\ value_in d short n 2 p rest (VMsg fs) /\ a = of fs).
  Proof.
    intros K Hs Hb. rewrite (merge_message_iff r short b new a rest Hs). split.
    - intros (l & len & body & -> & Hl & P & E). rewrite N0 in E.
      assert (Hb': Forall is_byte body) by (apply Forall_app in Hb as [_ Hb]; now apply Forall_app in Hb).
      apply R in E as (fs & F & ->); [|destruct P; lia|assumption]. exists (l ++ body), fs. split; [now rewrite app_assoc|]. split; [|reflexivity].
      apply (value_msg_iff _ _ _ _ _ _ _ _ K). split; [reflexivity|]. exists l, len, body, fs. auto.
    - intros (p & fs & -> & V & ->). apply (value_msg_iff _ _ _ _ _ _ _ _ K) in V as (_ & l & len & body & fs' & -> & Hl & P & F & E).
      assert (fs' = fs) as -> by congruence. exists l, len, body. split; [now rewrite app_assoc|]. split; [assumption|]. split; [assumption|].
      assert (Hb': Forall is_byte body) by (apply Forall_app in Hb as [Hb _]; now apply Forall_app in Hb).
      rewrite N0. apply R; [destruct P; lia|assumption|]. exists fs. auto.
  Qed.
  Lemma repeated_as d short n wt b l l' rest : kind_of d n = Some (KMsg d') -> 0 <= short -> Forall is_byte b ->
    (read_repeated r new short wt b l = (l', Some rest) <->
     exists p fs, b = p ++ rest /\ value_in d short n wt p rest (VMsg fs) /\ l' = l ++ [of fs]).
  Proof.
    intros K Hs Hb. unfold read_repeated. destruct (Z.eqb_spec wt WLen) as [->|N].
    - rewrite let_iff. split.
      + intros (a & H & ->). apply (message_as d short n b a rest K Hs Hb) in H as (p & fs & E & V & ->). exists p, fs. auto.
      + intros (p & fs & E & V & ->). exists (of fs). split; [|reflexivity]. apply (message_as d short n b (of fs) rest K Hs Hb). exists p, fs. auto.
    - split; [discriminate|]. intros (p & x & _ & V & _). apply (value_msg_iff _ _ _ _ _ _ _ _ K) in V as (-> & _). now destruct N.
  Qed.
  Lemma singular_as d short n wt b o o' rest : kind_of d n = Some (KMsg d') -> 0 <= short -> Forall is_byte b ->
    (read_singular r new short wt b o = (o', Some rest) <->
     exists p fs, b = p ++ rest /\ value_in d short n wt p rest (VMsg fs) /\ o' = Some (of fs)).
  Proof.
    intros K Hs Hb. unfold read_singular. destruct (Z.eqb_spec wt WLen) as [->|N].
    - rewrite let_iff. split.
      + intros (a & H & ->). apply (message_as d short n b a rest K Hs Hb) in H as (p & fs & E & V & ->). exists p, fs. auto.
      + intros (p & fs & E & V & ->). exists (of fs). split; [|reflexivity]. apply (message_as d short n b (of fs) rest K Hs Hb). exists p, fs. auto.
    - split; [discriminate|]. intros (p & x & _ & V & _). apply (value_msg_iff _ _ _ _ _ _ _ _ K) in V as (-> & _). now destruct N.
  Qed.
End MSG.

(* ------------------------------------------------------------------ *)
(** * Lists of fields *)

Lemma under_app n a b : under n (a ++ b) = under n a ++ under n b.
Proof. unfold under. now rewrite filter_app, map_app. Qed.
Lemma nums_app n a b : nums n (a ++ b) = nums n a ++ nums n b.
Proof. unfold nums. now rewrite under_app, flat_map_app. Qed.
Lemma fixed64s_app n a b : fixed64s n (a ++ b) = fixed64s n a ++ fixed64s n b.
Proof. unfold fixed64s. now rewrite under_app, flat_map_app. Qed.
Lemma blocks_app n a b : blocks n (a ++ b) = blocks n a ++ blocks n b.
Proof. unfold blocks. now rewrite under_app, flat_map_app. Qed.
Lemma msgs_app n a b : msgs n (a ++ b) = msgs n a ++ msgs n b.
Proof. unfold msgs. now rewrite under_app, flat_map_app. Qed.
Lemma others_app d e a b : others d e (a ++ b) = others d e a ++ others d e b.
Proof. unfold others. now rewrite flat_map_app. Qed.
Lemma under_1 n k v : under n [(k, v)] = if k =? n then [v] else [].
Proof. unfold under. cbn [filter fst]. destruct (k =? n); reflexivity. Qed.
Definition unk_of (n : Z) (v : fval) : unknowns :=
  match v with VNum z => [(n, UVarint z)] | V64 z => [(n, UFixed64 z)] | V32 z => [(n, UFixed32 z)] | VBytes b => [(n, UBytes b)] | _ => [] end.
Lemma others_none d e n v : kind_of d n = None -> others d e [(n, v)] = unk_of n v.
Proof. intros K. unfold others. cbn [flat_map fst snd]. rewrite K, app_nil_r. reflexivity. Qed.
Lemma unknown_as d short n wt b u u' rest : kind_of d n = None ->
  (read_unknown_or_skip_group n wt b u = (u', Some rest) <-> exists p v, b = p ++ rest /\ value_in d short n wt p rest v /\ u' = u ++ unk_of n v).
Proof.
  intros K. unfold read_unknown_or_skip_group. destruct (Z.eqb_spec wt WStartGroup) as [->|N].
  - split.
    + intros Q. assert (u' = u /\ skip_group (S (length b)) b = Some rest) as [-> H] by (split; congruence). apply skip_group_iff in H as (g & -> & G).
      exists g, VGroup. split; [reflexivity|]. split; [|cbn [unk_of]; now rewrite app_nil_r]. apply value_none_iff; [assumption|]. right. auto.
    + intros (p & v & -> & V & ->). apply value_none_iff in V as [V | (_ & G & ->)]; [|cbn [unk_of]; rewrite app_nil_r|assumption].
      * inversion V.
      * f_equal. apply skip_group_iff. eauto.
  - split.
    + destruct (read_unknown wt b) as [[x b']|] eqn:E; [|discriminate]. intros Q. assert (u' = u ++ [(n, x)] /\ rest = b') as [-> ->] by (split; congruence).
      apply read_unknown_iff in E as (p & -> & P). exists p, (kept x). split; [reflexivity|]. split; [apply value_none_iff; auto|]. now destruct x.
    + intros (p & v & -> & V & ->). apply value_none_iff in V as [V | (-> & _)]; [|now destruct N|assumption].
      destruct (plain_kept _ _ _ V) as (x & ->). assert (Q: read_unknown wt (p ++ rest) = Some (x, rest)) by (apply read_unknown_iff; eauto).
      rewrite Q. now destruct x.
Qed.

(* one field of a message: [x] reads its value, [C] is the form of the values of its kind *)
Lemma field_comp {A B M} (x : A * option bytes) (f : A -> M) (C : B -> fval) (F : B -> A) (g : fval -> M) (V : bytes -> fval -> Prop) b m rest :
  (forall t, x = (t, Some rest) <-> exists p z, b = p ++ rest /\ V p (C z) /\ t = F z) ->
  (forall p v, V p v -> exists z, v = C z) -> (forall p z, V p (C z) -> f (F z) = g (C z)) ->
  ((let '(a, r) := x in (f a, r)) = (m, Some rest) <-> exists p v, b = p ++ rest /\ V p v /\ m = g v).
Proof.
  intros H1 H2 H3. rewrite let_iff. split.
  - intros (a & E & ->). apply H1 in E as (p & z & E & Hv & ->). exists p, (C z). split; [assumption|]. split; [assumption|]. exact (H3 p z Hv).
  - intros (p & v & E & Hv & ->). destruct (H2 p v Hv) as (z & ->). exists (F z). split; [apply H1; eauto|]. symmetry. exact (H3 p z Hv).
Qed.
Lemma form_num d short n wt rest : kind_of d n = Some KNum -> forall p v, value_in d short n wt p rest v -> exists z, v = VNum z.
Proof. intros K p v V. apply value_num_iff in V as (_ & z & _ & ->); eauto. Qed.
Lemma form_64 d short n wt rest : kind_of d n = Some K64 -> forall p v, value_in d short n wt p rest v -> exists z, v = V64 z.
Proof. intros K p v V. apply value_64_iff in V as (_ & _ & ->); eauto. Qed.
Lemma form_text d short n wt rest : kind_of d n = Some KText -> forall p v, value_in d short n wt p rest v -> exists z, v = VBytes z.
Proof. intros K p v V. apply value_text_iff in V as (_ & z & _ & _ & ->); eauto. Qed.
Lemma form_data d short n wt rest : kind_of d n = Some KData -> forall p v, value_in d short n wt p rest v -> exists z, v = VBytes z.
Proof. intros K p v V. apply value_data_iff in V as (_ & z & _ & ->); eauto. Qed.
Lemma form_msg d short n wt rest d' : kind_of d n = Some (KMsg d') -> forall p v, value_in d short n wt p rest v -> exists z, v = VMsg z.
Proof. intros K p v V. apply (value_msg_iff _ _ _ _ _ _ _ _ K) in V as (_ & ? & ? & ? & z & _ & _ & _ & _ & ->); eauto. Qed.

(* the message with one more field *)
Ltac more := unfold int64; rewrite ?nums_app, ?fixed64s_app, ?blocks_app, ?msgs_app, ?others_app;
  repeat match goal with
  | |- context [nums ?n [(?k, ?v)]] => let y := eval cbn in (nums n [(k, v)]) in change (nums n [(k, v)]) with y
  | |- context [fixed64s ?n [(?k, ?v)]] => let y := eval cbn in (fixed64s n [(k, v)]) in change (fixed64s n [(k, v)]) with y
  | |- context [blocks ?n [(?k, ?v)]] => let y := eval cbn in (blocks n [(k, v)]) in change (blocks n [(k, v)]) with y
  | |- context [msgs ?n [(?k, ?v)]] => let y := eval cbn in (msgs n [(k, v)]) in change (msgs n [(k, v)]) with y
  | |- context [others ?d ?e [(?k, ?v)]] => change (others d e [(k, v)]) with (@nil (Z * uval))
  end; rewrite ?map_app; cbn [map]; rewrite ?app_nil_r, ?last_last; try reflexivity.
(* an unknown field *)
Lemma nums_ne n k v : k <> n -> nums n [(k, v)] = [].
Proof. intros E. unfold nums. rewrite under_1. apply Z.eqb_neq in E. now rewrite E. Qed.
Lemma fixed64s_ne n k v : k <> n -> fixed64s n [(k, v)] = [].
Proof. intros E. unfold fixed64s. rewrite under_1. apply Z.eqb_neq in E. now rewrite E. Qed.
Lemma blocks_ne n k v : k <> n -> blocks n [(k, v)] = [].
Proof. intros E. unfold blocks. rewrite under_1. apply Z.eqb_neq in E. now rewrite E. Qed.
Lemma msgs_ne n k v : k <> n -> msgs n [(k, v)] = [].
Proof. intros E. unfold msgs. rewrite under_1. apply Z.eqb_neq in E. now rewrite E. Qed.
Lemma kind_none d n : (forall k, In k (map fst d) -> n <> k) -> kind_of d n = None.
Proof.
  intros H. unfold kind_of. destruct (find _ d) as [x|] eqn:E; [|reflexivity]. apply find_some in E as [E1 E2]. apply Z.eqb_eq in E2.
  destruct (H (fst x)); [now apply in_map|congruence].
Qed.
Lemma unknown_comp {M} d short n wt b u (f : unknowns -> M) (of : list (Z * fval) -> M) fs0 m rest : kind_of d n = None ->
  (forall v, f (u ++ unk_of n v) = of (fs0 ++ [(n, v)])) ->
  ((let '(u', r) := read_unknown_or_skip_group n wt b u in (f u', r)) = (m, Some rest) <->
   exists p v, b = p ++ rest /\ value_in d short n wt p rest v /\ m = of (fs0 ++ [(n, v)])).
Proof.
  intros K H. apply (field_comp (read_unknown_or_skip_group n wt b u) f (fun v => v) (fun v => u ++ unk_of n v) (fun v => of (fs0 ++ [(n, v)])) (fun p v => value_in d short n wt p rest v)).
  - intros t. now apply unknown_as.
  - eauto.
  - intros _ z _. apply H.
Qed.
Ltac none d of :=
  let K := fresh "K" in match goal with |- _ <-> exists p v, _ /\ value_in _ _ ?n _ _ _ _ /\ _ => assert (K: kind_of d n = None) by (apply kind_none; cbn [d map fst In]; intuition congruence) end;
  apply unknown_comp; [exact K|]; intros v; unfold of, int64;
  rewrite ?nums_app, ?fixed64s_app, ?blocks_app, ?msgs_app, ?others_app, ?others_none by exact K;
  rewrite ?nums_ne, ?fixed64s_ne, ?blocks_ne, ?msgs_ne by assumption; rewrite ?app_nil_r; reflexivity.
Ltac comp x C F d of k :=
  match goal with |- _ <-> exists p v, _ /\ value_in _ ?short _ ?wt _ ?rest _ /\ _ = _ (?fs0 ++ _) =>
    apply (field_comp x _ C F (fun v => of (fs0 ++ [(k, v)])) (fun p v => value_in d short k wt p rest v)) end.
Ltac num d of k := match goal with |- context [read_int64 ?a ?b ?c] => comp (read_int64 a b c) VNum (wraps 64) d of k; [intros t; now apply int64_as|now apply form_num|intros p z _; unfold of; more] end.
Ltac str d of k := match goal with |- context [read_string ?a ?b ?c] => comp (read_string a b c) VBytes (fun z : bytes => z) d of k; [intros t; now apply text_as|now apply form_text|intros p z _; unfold of; more] end.
Ltac rep d of k of' R := match goal with |- context [read_repeated ?r ?new ?sh ?wt ?b ?vs] => comp (read_repeated r new sh wt b vs) VMsg (fun g => vs ++ [of' g]) d of k;
  [intros t; now apply (repeated_as _ _ _ _ R)|now eapply form_msg|intros p z _; unfold of; more] end.

Theorem sample_fields : field_as sample_field sample_desc sample_of.
Proof.
  intros short n wt b fs0 m rest Hs Hb. unfold sample_field, sample_of at 1.
  destruct (Z.eqb_spec n 1) as [->|N1].
  { comp (read_double wt b (last (fixed64s 1 fs0) 0)) V64 (fun z : Z => z) sample_desc sample_of 1; [intros t; now apply double_as|now apply form_64|intros p z _; unfold sample_of; more]. }
  destruct (Z.eqb_spec n 2) as [->|N2]; [num sample_desc sample_of 2|]. none sample_desc sample_of.
Qed.
Theorem sample_reads : reads_as sample_read sample_desc sample_of.
Proof. exact (reads_field _ _ _ sample_fields). Qed.
Theorem plabel_fields : field_as plabel_field plabel_desc plabel_of.
Proof.
  intros short n wt b fs0 m rest Hs Hb. unfold plabel_field, plabel_of at 1.
  destruct (Z.eqb_spec n 1) as [->|N1]; [str plabel_desc plabel_of 1|].
  destruct (Z.eqb_spec n 2) as [->|N2]; [str plabel_desc plabel_of 2|]. none plabel_desc plabel_of.
Qed.
Theorem plabel_reads : reads_as plabel_read plabel_desc plabel_of.
Proof. exact (reads_field _ _ _ plabel_fields). Qed.
Theorem pseries_fields : field_as pseries_field pseries_desc pseries_of.
Proof.
  intros short n wt b fs0 m rest Hs Hb. unfold pseries_field, pseries_of at 1.
  destruct (Z.eqb_spec n 1) as [->|N1]; [rep pseries_desc pseries_of 1 plabel_of plabel_reads|].
  destruct (Z.eqb_spec n 2) as [->|N2]; [rep pseries_desc pseries_of 2 sample_of sample_reads|]. none pseries_desc pseries_of.
Qed.
Theorem pseries_reads : reads_as pseries_read pseries_desc pseries_of.
Proof. exact (reads_field _ _ _ pseries_fields). Qed.

Lemma enum_comp {M T} (from : Z -> option T) (m0 : M) (set : T -> M) (keep : Z -> M) d short n wt b (of : list (Z * fval) -> M) fs0 m rest :
  kind_of d n = Some KNum ->
  (forall z, of (fs0 ++ [(n, VNum z)]) = match from (int32 z) with Some t => set t | None => keep (int32 z) end) ->
  ((if wt =? WVarint then match read_int32 b with
      | None => (m0, None)
      | Some (z, b') => match from z with Some t => (set t, Some b') | None => (keep z, Some b') end end
    else (m0, None)) = (m, Some rest) <->
   exists p v, b = p ++ rest /\ value_in d short n wt p rest v /\ m = of (fs0 ++ [(n, v)])).
Proof.
  intros K H. destruct (Z.eqb_spec wt WVarint) as [->|N].
  - split.
    + destruct (read_int32 b) as [[z b']|] eqn:E; [|discriminate]. intros Q.
      assert (b' = rest /\ m = match from z with Some t => set t | None => keep z end) as [-> ->] by (destruct (from z); split; congruence).
      apply (int32_as d short n 0) in E as (p & y & -> & V & ->); [|auto|reflexivity]. exists p, (VNum y). split; [reflexivity|]. split; [assumption|]. now rewrite H.
    + intros (p & v & E & V & ->). destruct (form_num _ _ _ _ _ K _ _ V) as (y & ->).
      assert (Q: read_int32 b = Some (int32 y, rest)) by (apply (int32_as d short n 0); eauto). rewrite Q, H. now destruct (from (int32 y)).
  - split; [discriminate|]. intros (p & v & _ & V & _). apply value_num_iff in V as (-> & _); [|assumption]. now destruct N.
Qed.
Lemma mtype_from_named z : mtype_from z = if is_mtype z then Some (mtype_named z) else None.
Proof.
  unfold mtype_from, is_mtype, mtype_named.
  destruct (Z.eqb_spec z 0) as [->|]; [reflexivity|]. destruct (Z.eqb_spec z 1) as [->|]; [reflexivity|]. destruct (Z.eqb_spec z 2) as [->|]; [reflexivity|].
  destruct (Z.eqb_spec z 3) as [->|]; [reflexivity|]. destruct ((0 <=? z) && (z <=? 3)) eqn:E; [lia|reflexivity].
Qed.
Lemma rtype_from_named z : rtype_from z = if is_bit z then Some (rtype_named z) else None.
Proof. unfold rtype_from, is_bit, rtype_named. destruct (Z.eqb_spec z 0) as [->|]; [reflexivity|]. now destruct (Z.eqb_spec z 1) as [->|]. Qed.
Lemma encoding_from_named z : encoding_from z = if is_bit z then Some (encoding_named z) else None.
Proof. unfold encoding_from, is_bit, encoding_named. destruct (Z.eqb_spec z 0) as [->|]; [reflexivity|]. now destruct (Z.eqb_spec z 1) as [->|]. Qed.
Ltac enum d of k is E := 
  apply enum_comp; [reflexivity|]; intros z; rewrite E; unfold of;
  rewrite others_app; unfold others at 2; cbn [flat_map fst snd d kind_of find option_map Z.eqb Pos.eqb stray map]; more;
  rewrite !filter_app, !map_app; cbn [filter]; destruct (is (int32 z)); cbn [map app]; rewrite ?app_nil_r, ?last_last; reflexivity.

Theorem matcher_fields : field_as matcher_field matcher_desc matcher_of.
Proof.
  intros short n wt b fs0 m rest Hs Hb. unfold matcher_field, matcher_of at 1.
  destruct (Z.eqb_spec n 1) as [->|N1]; [enum matcher_desc matcher_of 1 is_mtype mtype_from_named|].
  destruct (Z.eqb_spec n 2) as [->|N2]; [str matcher_desc matcher_of 2|].
  destruct (Z.eqb_spec n 3) as [->|N3]; [str matcher_desc matcher_of 3|].
  none matcher_desc matcher_of.
Qed.
Theorem matcher_reads : reads_as matcher_read matcher_desc matcher_of.
Proof. exact (reads_field _ _ _ matcher_fields). Qed.

Theorem hints_fields : field_as hints_field hints_desc hints_of.
Proof.
  intros short n wt b fs0 m rest Hs Hb. unfold hints_field, hints_of at 1.
  destruct (Z.eqb_spec n 1) as [->|N1]; [num hints_desc hints_of 1|].
  destruct (Z.eqb_spec n 2) as [->|N2]; [str hints_desc hints_of 2|].
  destruct (Z.eqb_spec n 3) as [->|N3]; [num hints_desc hints_of 3|].
  destruct (Z.eqb_spec n 4) as [->|N4]; [num hints_desc hints_of 4|].
  none hints_desc hints_of.
Qed.
Theorem hints_reads : reads_as hints_read hints_desc hints_of.
Proof. exact (reads_field _ _ _ hints_fields). Qed.
Theorem pquery_fields : field_as pquery_field pquery_desc pquery_of.
Proof.
  intros short n wt b fs0 m rest Hs Hb. unfold pquery_field, pquery_of at 1.
  destruct (Z.eqb_spec n 1) as [->|N1]; [num pquery_desc pquery_of 1|].
  destruct (Z.eqb_spec n 2) as [->|N2]; [num pquery_desc pquery_of 2|].
  destruct (Z.eqb_spec n 3) as [->|N3]; [rep pquery_desc pquery_of 3 matcher_of matcher_reads|].
  destruct (Z.eqb_spec n 4) as [->|N4].
  { match goal with |- context [read_singular ?r ?new ?sh ?w ?x ?vs] => comp (read_singular r new sh w x vs) VMsg (fun g => Some (hints_of g)) pquery_desc pquery_of 4 end.
    - intros t. now apply (singular_as _ _ _ _ hints_reads).
    - now eapply form_msg.
    - intros p z _. unfold pquery_of. more. }
  none pquery_desc pquery_of.
Qed.
Theorem pquery_reads : reads_as pquery_read pquery_desc pquery_of.
Proof. exact (reads_field _ _ _ pquery_fields). Qed.
Lemma let_iff2 {A B M} (x : (A * B) * option bytes) (f : A -> B -> M) m rest :
  (let '((a, c), r) := x in (f a c, r)) = (m, Some rest) <-> exists a c, x = ((a, c), Some rest) /\ m = f a c.
Proof. destruct x as [[a c] r]. split; [intros H; exists a, c; split; congruence|]. intros (a' & c' & H & ->). congruence. Qed.
Lemma types_run zs : forall ts u,
  fold_left (fun a z => add_type (int32 z) (fst a) (snd a)) zs (ts, u) =
  (ts ++ map rtype_named (filter is_bit (map int32 zs)), u ++ map (fun x => (2, x)) (stray is_bit (VNums zs))).
Proof.
  cbn [stray]. induction zs as [|z zs IH]; intros ts u; [cbn [fold_left map filter]; now rewrite !app_nil_r|].
  cbn [fold_left map filter fst snd]. unfold add_type at 2. rewrite rtype_from_named. destruct (is_bit (int32 z)); cbn [negb map]; rewrite IH, <- app_assoc; reflexivity.
Qed.
Theorem read_request_fields : field_as read_request_field read_request_desc read_request_of.
Proof.
  intros short n wt b fs0 m rest Hs Hb. unfold read_request_field, read_request_of at 1.
  destruct (Z.eqb_spec n 1) as [->|N1]; [rep read_request_desc read_request_of 1 pquery_of pquery_reads|].
  destruct (Z.eqb_spec n 2) as [->|N2]; [|none read_request_desc read_request_of].
  assert (K: kind_of read_request_desc 2 = Some KNums) by reflexivity.
  assert (V: forall v zs, nums 2 [(2, v)] = zs -> stray is_bit v = stray is_bit (VNums zs) -> forall qs ts u,
    qs = map pquery_of (msgs 1 fs0) -> msgs 1 [(2, v)] = [] ->
    (ts, u) = fold_left (fun a z => add_type (int32 z) (fst a) (snd a)) zs (map rtype_named (filter is_bit (map int32 (nums 2 fs0))), others read_request_desc [(2, is_bit)] fs0) ->
    mkReadReq qs ts u = read_request_of (fs0 ++ [(2, v)])).
  { intros v zs E1 E2 qs ts u -> E3 E. rewrite types_run in E. assert (E4: others read_request_desc [(2, is_bit)] [(2, v)] = map (fun x => (2, x)) (stray is_bit v)).
    { unfold others. cbn [flat_map fst snd read_request_desc kind_of find option_map Z.eqb Pos.eqb]. apply app_nil_r. }
    unfold read_request_of. rewrite msgs_app, nums_app, others_app, E1, E3, E4, E2, !map_app, !filter_app, !map_app, app_nil_r. congruence. }
  destruct (Z.eqb_spec wt WLen) as [->|Nl]; [|destruct (Z.eqb_spec wt WVarint) as [->|Nv]].
  - rewrite let_iff2. split.
    + intros (ts & u & E & ->). apply merge_message_iff in E as (l & len & body & -> & Hl & P & E); [|assumption].
      apply read_packed_iff in E as (zs & Z1 & E); [|lia]. exists (l ++ body), (VNums zs). split; [now rewrite app_assoc|]. split.
      * apply value_nums_iff; [reflexivity|]. right. split; [reflexivity|]. exists l, len, body, zs. auto.
      * apply (V (VNums zs) zs); try reflexivity; [|assumption]. cbn. apply app_nil_r.
    + intros (p & v & -> & W & ->). apply (value_nums_iff _ _ _ _ _ _ _ K) in W as [(Q & _)|(_ & l & len & body & zs & -> & Hl & P & Z1 & ->)]; [discriminate|].
      destruct (fold_left (fun a z => add_type (int32 z) (fst a) (snd a)) zs (map rtype_named (filter is_bit (map int32 (nums 2 fs0))), others read_request_desc [(2, is_bit)] fs0)) as [ts u] eqn:E.
      exists ts, u. split.
      * apply merge_message_iff; [assumption|]. exists l, len, body. split; [now rewrite app_assoc|]. split; [assumption|]. split; [assumption|].
        apply read_packed_iff; [lia|]. exists zs. split; [assumption|congruence].
      * symmetry. apply (V (VNums zs) zs); try reflexivity; [|congruence]. cbn. apply app_nil_r.
  - split.
    + destruct (read_int32 b) as [[z b']|] eqn:E; [|discriminate]. apply (int32_as read_request_desc short 2 0) in E as (p & y & -> & W & ->); [|auto|reflexivity].
      destruct (add_type _ _ _) as [ts u] eqn:A. intros Q. assert (m = mkReadReq (map pquery_of (msgs 1 fs0)) ts u /\ b' = rest) as [-> ->] by (split; congruence).
      exists p, (VNum y). split; [reflexivity|]. split; [assumption|]. apply (V (VNum y) [y]); try reflexivity; [|cbn [fold_left fst snd]; congruence].
      cbn [stray filter map]. now destruct (is_bit (int32 y)).
    + intros (p & v & -> & W & ->). pose proof W as W'. apply (value_nums_iff _ _ _ _ _ _ _ K) in W' as [(_ & y & _ & ->)|(Q & _)]; [|discriminate].
      assert (Q: read_int32 (p ++ rest) = Some (int32 y, rest)) by (apply (int32_as read_request_desc short 2 0); eauto). rewrite Q.
      destruct (add_type _ _ _) as [ts u] eqn:A. f_equal. apply (V (VNum y) [y]); try reflexivity; [|cbn [fold_left fst snd]; congruence].
      cbn [stray filter map]. now destruct (is_bit (int32 y)).
  - split; [discriminate|]. intros (p & v & _ & W & _). apply (value_nums_iff _ _ _ _ _ _ _ K) in W as [(-> & _)|(-> & _)]; [now destruct Nv|now destruct Nl].
Qed.
Theorem read_request_reads : reads_as read_request_read read_request_desc read_request_of.
Proof. exact (reads_field _ _ _ read_request_fields). Qed.
Theorem write_request_fields : field_as write_request_field write_request_desc write_request_of.
Proof.
  intros short n wt b fs0 m rest Hs Hb. unfold write_request_field, write_request_of at 1.
  destruct (Z.eqb_spec n 1) as [->|N1]; [rep write_request_desc write_request_of 1 pseries_of pseries_reads|]. none write_request_desc write_request_of.
Qed.
Theorem write_request_reads : reads_as write_request_read write_request_desc write_request_of.
Proof. exact (reads_field _ _ _ write_request_fields). Qed.
Theorem query_result_fields : field_as query_result_field query_result_desc query_result_of.
Proof.
  intros short n wt b fs0 m rest Hs Hb. unfold query_result_field, query_result_of at 1.
  destruct (Z.eqb_spec n 1) as [->|N1]; [rep query_result_desc query_result_of 1 pseries_of pseries_reads|]. none query_result_desc query_result_of.
Qed.
Theorem query_result_reads : reads_as query_result_read query_result_desc query_result_of.
Proof. exact (reads_field _ _ _ query_result_fields). Qed.
Theorem read_response_fields : field_as read_response_field read_response_desc read_response_of.
Proof.
  intros short n wt b fs0 m rest Hs Hb. unfold read_response_field, read_response_of at 1.
  destruct (Z.eqb_spec n 1) as [->|N1]; [rep read_response_desc read_response_of 1 query_result_of query_result_reads|]. none read_response_desc read_response_of.
Qed.
Theorem read_response_reads : reads_as read_response_read read_response_desc read_response_of.
Proof. exact (reads_field _ _ _ read_response_fields). Qed.
Theorem plabels_fields : field_as plabels_field plabels_desc plabels_of.
Proof.
  intros short n wt b fs0 m rest Hs Hb. unfold plabels_field, plabels_of at 1.
  destruct (Z.eqb_spec n 1) as [->|N1]; [rep plabels_desc plabels_of 1 plabel_of plabel_reads|]. none plabels_desc plabels_of.
Qed.
Theorem plabels_reads : reads_as plabels_read plabels_desc plabels_of.
Proof. exact (reads_field _ _ _ plabels_fields). Qed.
Theorem pchunk_fields : field_as pchunk_field pchunk_desc pchunk_of.
Proof.
  intros short n wt b fs0 m rest Hs Hb. unfold pchunk_field, pchunk_of at 1.
  destruct (Z.eqb_spec n 1) as [->|N1]; [num pchunk_desc pchunk_of 1|].
  destruct (Z.eqb_spec n 2) as [->|N2]; [num pchunk_desc pchunk_of 2|].
  destruct (Z.eqb_spec n 3) as [->|N3]; [enum pchunk_desc pchunk_of 3 is_bit encoding_from_named|].
  destruct (Z.eqb_spec n 4) as [->|N4].
  { match goal with |- context [read_data ?w ?x ?vs] => comp (read_data w x vs) VBytes (fun x : bytes => x) pchunk_desc pchunk_of 4 end.
    - intros t. now apply data_as.
    - now apply form_data.
    - intros p z _. unfold pchunk_of. more. }
  none pchunk_desc pchunk_of.
Qed.
Theorem pchunk_reads : reads_as pchunk_read pchunk_desc pchunk_of.
Proof. exact (reads_field _ _ _ pchunk_fields). Qed.
Theorem cseries_fields : field_as cseries_field cseries_desc cseries_of.
Proof.
  intros short n wt b fs0 m rest Hs Hb. unfold cseries_field, cseries_of at 1.
  destruct (Z.eqb_spec n 1) as [->|N1]; [rep cseries_desc cseries_of 1 plabel_of plabel_reads|].
  destruct (Z.eqb_spec n 2) as [->|N2]; [rep cseries_desc cseries_of 2 pchunk_of pchunk_reads|].
  none cseries_desc cseries_of.
Qed.
Theorem cseries_reads : reads_as cseries_read cseries_desc cseries_of.
Proof. exact (reads_field _ _ _ cseries_fields). Qed.
Theorem cresponse_fields : field_as cresponse_field cresponse_desc cresponse_of.
Proof.
  intros short n wt b fs0 m rest Hs Hb. unfold cresponse_field, cresponse_of at 1.
  destruct (Z.eqb_spec n 1) as [->|N1]; [rep cresponse_desc cresponse_of 1 cseries_of cseries_reads|].
  destruct (Z.eqb_spec n 2) as [->|N2]; [num cresponse_desc cresponse_of 2|].
  none cresponse_desc cresponse_of.
Qed.
Theorem cresponse_reads : reads_as cresponse_read cresponse_desc cresponse_of.
Proof. exact (reads_field _ _ _ cresponse_fields). Qed.
