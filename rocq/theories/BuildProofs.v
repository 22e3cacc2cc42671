(* A build with overflow checks and one without. *)
From Verif Require Import Rust Bstream BitSpec BstreamProofs BitsProofs GorillaBits Gorilla GorillaSpec GorillaEnc GorillaDec GorillaRound GorillaProofs Compactor CompactorSpec CompactorProofs BuildSpec.
From Coq Require Import ZifyBool ZifyNat.

Lemma agrees_refl {A} (m : res A) : agrees m m.
Proof. right. reflexivity. Qed.

Lemma agrees_bind {A B} (m1 m2 : res A) (f1 f2 : A -> res B) : agrees m1 m2 -> (forall x, agrees (f1 x) (f2 x)) ->
  agrees (rbind m1 f1) (rbind m2 f2).
Proof.
  intros [->| ->] H; [left; reflexivity|]. destruct m2 as [x|e|]; cbn [rbind]; [apply H|right|right]; reflexivity.
Qed.

Lemma agrees_map {A B} (f : A -> B) (m1 m2 : res A) : agrees m1 m2 -> agrees (rmap f m1) (rmap f m2).
Proof. intros [->| ->]; [left|right]; reflexivity. Qed.

Lemma ag_u n z : agrees (arith_u true n z) (arith_u false n z).
Proof. unfold arith_u. destruct (in_u n z); [right|left]; reflexivity. Qed.
Lemma ag_s n z : agrees (arith_s true n z) (arith_s false n z).
Proof. unfold arith_s. destruct (in_s n z); [right|left]; reflexivity. Qed.
Lemma ag_shl8 x s : agrees (shl8 true x s) (shl8 false x s).
Proof. unfold shl8. destruct (s <? 8); [right|left]; reflexivity. Qed.
Lemma ag_shr8 x s : agrees (shr8 true x s) (shr8 false x s).
Proof. unfold shr8. destruct (s <? 8); [right|left]; reflexivity. Qed.
Lemma ag_shr64 x s : agrees (shr64 true x s) (shr64 false x s).
Proof. unfold shr64. destruct (s <? 64); [right|left]; reflexivity. Qed.
Lemma ag_bitlen b : agrees (bs_bitlen true b) (bs_bitlen false b).
Proof. unfold bs_bitlen. cbv zeta. destruct (0 <=? _); [right|left]; reflexivity. Qed.

Create HintDb ag.
#[local] Hint Extern 0 (agrees (arith_u true _ _) _) => apply ag_u : ag.
#[local] Hint Extern 0 (agrees (arith_s true _ _) _) => apply ag_s : ag.
#[local] Hint Extern 0 (agrees (shl8 true _ _) _) => apply ag_shl8 : ag.
#[local] Hint Extern 0 (agrees (shr8 true _ _) _) => apply ag_shr8 : ag.
#[local] Hint Extern 0 (agrees (shr64 true _ _) _) => apply ag_shr64 : ag.
#[local] Hint Extern 0 (agrees (bs_bitlen true _) _) => apply ag_bitlen : ag.

Ltac ag :=
  repeat (cbv zeta; first
    [ solve [auto with ag nocore]
    | match goal with
      | |- agrees ?m ?n => constr_eq m n; exact (agrees_refl m)
      | |- agrees (rbind _ _) (rbind _ _) => apply agrees_bind; [|intro]
      | |- agrees (if ?b then _ else _) (if ?b then _ else _) => destruct b
      | |- agrees (match ?x with _ => _ end) (match ?x with _ => _ end) => destruct x
      end ]).

Lemma ag_write b x : agrees (bs_write true b x) (bs_write false b x).
Proof. unfold bs_write. ag. Qed.
#[local] Hint Extern 0 (agrees (bs_write true _ _) _) => apply ag_write : ag.
Lemma ag_append_loop rem l : forall out, agrees (append_loop true rem l out) (append_loop false rem l out).
Proof.
  induction l as [|x l IH]; intros out; cbn [append_loop]; [ag|]. destruct l as [|y l]; [ag|].
  repeat (apply agrees_bind; [solve [auto with ag nocore]|intro]). apply IH.
Qed.
#[local] Hint Extern 0 (agrees (append_loop true _ _ _) _) => apply ag_append_loop : ag.
Lemma ag_abs a b : agrees (abs_diff_i8 true a b) (abs_diff_i8 false a b).
Proof. unfold abs_diff_i8. ag. Qed.
#[local] Hint Extern 0 (agrees (abs_diff_i8 true _ _) _) => apply ag_abs : ag.
Lemma ag_append s b : agrees (bs_append true s b) (bs_append false s b).
Proof. unfold bs_append. ag. Qed.
#[local] Hint Extern 0 (agrees (bs_append true _ _) _) => apply ag_append : ag.
Lemma ag_append_bytes s b r : agrees (bs_append_bytes true s b r) (bs_append_bytes false s b r).
Proof. unfold bs_append_bytes. ag. Qed.
#[local] Hint Extern 0 (agrees (bs_append_bytes true _ _ _) _) => apply ag_append_bytes : ag.
Lemma ag_append_delta s d n : agrees (bs_append_timestamp_delta true s d n) (bs_append_timestamp_delta false s d n).
Proof. unfold bs_append_timestamp_delta. ag. Qed.
#[local] Hint Extern 0 (agrees (bs_append_timestamp_delta true _ _ _) _) => apply ag_append_delta : ag.
Lemma ag_write_bits s v n : agrees (bs_write_bits true s v n) (bs_write_bits false s v n).
Proof. unfold bs_write_bits. ag. Qed.
#[local] Hint Extern 0 (agrees (bs_write_bits true _ _ _) _) => apply ag_write_bits : ag.
Lemma ag_zero s : agrees (bs_write_zero true s) (bs_write_zero false s).
Proof. apply ag_write. Qed.
Lemma ag_one s : agrees (bs_write_one true s) (bs_write_one false s).
Proof. apply ag_write. Qed.
#[local] Hint Extern 0 (agrees (bs_write_zero true _) _) => apply ag_zero : ag.
#[local] Hint Extern 0 (agrees (bs_write_one true _) _) => apply ag_one : ag.
Lemma ag_read sk buf n : agrees (sk_read true sk buf n) (sk_read false sk buf n).
Proof. unfold sk_read. ag. Qed.
#[local] Hint Extern 0 (agrees (sk_read true _ _ _) _) => apply ag_read : ag.

Lemma ag_range t n : agrees (in_bit_range true t n) (in_bit_range false t n).
Proof. unfold in_bit_range. ag. Qed.
#[local] Hint Extern 0 (agrees (in_bit_range true _ _) _) => apply ag_range : ag.
Lemma ag_value g v : agrees (gc_compact_value true g v) (gc_compact_value false g v).
Proof. unfold gc_compact_value. ag. Qed.
#[local] Hint Extern 0 (agrees (gc_compact_value true _ _) _) => apply ag_value : ag.
Lemma ag_dod b d : agrees (gc_write_dod true b d) (gc_write_dod false b d).
Proof. unfold gc_write_dod. ag. Qed.
#[local] Hint Extern 0 (agrees (gc_write_dod true _ _) _) => apply ag_dod : ag.
Lemma ag_compact g p : agrees (gc_compact true g p) (gc_compact false g p).
Proof. unfold gc_compact. ag. Qed.
#[local] Hint Extern 0 (agrees (gc_compact true _ _) _) => apply ag_compact : ag.
Lemma ag_compact_all ps : forall g, agrees (gc_compact_all true g ps) (gc_compact_all false g ps).
Proof. induction ps as [|p ps IH]; intros g; cbn [gc_compact_all]; ag. Qed.

Lemma ag_values g : agrees (gd_values true g) (gd_values false g).
Proof. unfold gd_values. ag. Qed.
#[local] Hint Extern 0 (agrees (gd_values true _) _) => apply ag_values : ag.
Lemma ag_timestamp g r : agrees (gd_timestamp true g r) (gd_timestamp false g r).
Proof. unfold gd_timestamp. ag. Qed.
#[local] Hint Extern 0 (agrees (gd_timestamp true _ _) _) => apply ag_timestamp : ag.
Lemma ag_finish g t : agrees (gd_finish true g t) (gd_finish false g t).
Proof. unfold gd_finish. ag. Qed.
#[local] Hint Extern 0 (agrees (gd_finish true _ _) _) => apply ag_finish : ag.
Lemma ag_next g : agrees (gd_next true g) (gd_next false g).
Proof. unfold gd_next. ag. Qed.

Lemma ag_collect fuel : forall g, gd_collect fuel true g = Some Panic \/ gd_collect fuel true g = gd_collect fuel false g.
Proof.
  induction fuel as [|fuel IH]; intros g; cbn [gd_collect]; [right; reflexivity|].
  destruct (ag_next g) as [->| ->]; [left; reflexivity|].
  destruct (gd_next false g) as [[[p|] g']|e|]; try (right; reflexivity).
  destruct (IH g') as [->| ->]; [left; reflexivity|]. right. reflexivity.
Qed.

(* ---- the public interface ---- *)
Lemma builds_bits s os : agrees (bops_run true s os) (bops_run false s os).
Proof.
  revert s. induction os as [|o os IH]; intros s; cbn [bops_run]; [ag|].
  apply agrees_bind; [|intro; apply IH]. destruct o; cbn [bop_run]; ag.
Qed.

Lemma builds_compact k os : agrees (cops_run true k os) (cops_run false k os).
Proof.
  revert k. induction os as [|[p|] os IH]; intros k; cbn [cops_run]; [ag| |].
  - apply agrees_bind; [|intro; apply IH]. destruct k; cbn [compactor_compact]; [apply agrees_map, ag_compact|ag|ag].
  - apply agrees_bind; [ag|intro]. apply agrees_bind; [apply IH|intro; ag].
Qed.

Lemma builds_vec k ps : agrees (compactor_compact_vec true k ps) (compactor_compact_vec false k ps).
Proof. destruct k; cbn [compactor_compact_vec]; [|ag|ag]. apply agrees_bind; [apply ag_compact_all|intro; ag]. Qed.

Lemma builds_decompress c data : decompress true c data = Some Panic \/ decompress true c data = decompress false c data.
Proof.
  unfold decompress. destruct (decompactor_from c data) as [d|e|]; try (right; reflexivity).
  destruct d as [g|v]; cbn [decompactor_decompact]; [|right; reflexivity]. apply ag_collect.
Qed.

Lemma builds_admissible ps : Forall tp_ok ps -> admissible true ps = true -> admissible false ps = true.
Proof.
  intros HF H. apply roundtrip_iff in H; [|assumption]. apply roundtrip_iff; [assumption|].
  destruct H as (b & k & E & D). exists b, k.
  destruct (builds_vec (compactor_new CGorilla) ps) as [X|X]; rewrite X in E; [discriminate|].
  destruct (builds_decompress CGorilla b) as [Y|Y]; rewrite Y in D; [discriminate|]. split; assumption.
Qed.

Lemma builds_exchange ps : Forall tp_ok ps -> admissible true ps = true ->
  exists b, forall w, exists k, compactor_compact_vec w (compactor_new CGorilla) ps = Ok (b, k) /\
    forall r, decompress r CGorilla b = Some (Ok ps).
Proof.
  intros HF H. apply roundtrip_iff in H; [|assumption]. destruct H as (b & k & E & D). exists b.
  assert (D' : decompress false CGorilla b = Some (Ok ps))
    by (destruct (builds_decompress CGorilla b) as [Y|Y]; rewrite Y in D; [discriminate|assumption]).
  intros w. exists k. split; [|intros []; assumption]. destruct w; [assumption|].
  destruct (builds_vec (compactor_new CGorilla) ps) as [X|X]; rewrite X in E; [discriminate|assumption].
Qed.
