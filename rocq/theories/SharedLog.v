(* Proofs about logs of concurrent clients: what they lead to. *)
From Coq Require Import ZifyBool ZifyNat Permutation Sorted.
From Verif Require Import Rust StringProofs Prog Gorilla GorillaSpec Storage StorageSpec StorageProofs Labels IndexSpec Indexer
  LabelProofs IndexProofs Chunk ChunkSpec ChunkProofs ChunkFacts ConcSpec Conc Utils DirSpec DirProofs TiKvInit Db DbSpec MapProofs
  DbProofs DbHist DbFacts FaultsSpec FaultsProofs FaultsMain SwapSpec SwapProofs SwapConc SwapMain WritersSpec WritersProofs WritersConc WritersMain
  ReadsSpec ReadsMay ReadsCrash ReadsConc SharedSpec.
Local Notation plain := SwapProofs.plain.

(** ** chunks only grow along a history *)
Definition below := grew.
Lemma below_refl a : below a a.
Proof. intros j c A H. exists A. split; [exact H|apply grown_refl]. Qed.
Lemma below_trans a b c : below a b -> below b c -> below a c.
Proof.
  intros H1 H2 j x A N. destruct (H1 _ _ _ N) as (B & N2 & G2). destruct (H2 _ _ _ N2) as (C & N3 & G3). exists C. split; [exact N3|]. eapply grown_trans; eassumption.
Qed.
Lemma below_length a b : below a b -> (length a <= length b)%nat.
Proof.
  intros H. destruct (le_lt_dec (length a) (length b)) as [L|L]; [exact L|exfalso].
  destruct (nth_error a (length b)) as [[c A]|] eqn:E; [|apply nth_error_None in E; lia].
  destruct (H _ _ _ E) as (A' & N & _). assert (nth_error b (length b) <> None) by congruence. apply nth_error_Some in H0. lia.
Qed.
Lemma below_content a b j : below a b -> grown (content_at a j) (content_at b j).
Proof.
  intros H. unfold content_at. destruct (nth_error a j) as [[c A]|] eqn:E; [|intros i ls pts N; destruct i; discriminate].
  destruct (H _ _ _ E) as (A' & -> & G). exact G.
Qed.

Lemma parts_first cf ops : forall start h, exists h' l, parts_from cf start h ops = (the_chunk cf start, content_of (the_chunk cf start) (h ++ h')) :: l.
Proof.
  induction ops as [|[ls p|ls pts|st] ops IH]; intros start h; cbn [parts_from].
  - exists [], []. now rewrite app_nil_r.
  - destruct (IH start (h ++ [(ls, p)])) as (h' & l & ->). exists ((ls, p) :: h'), l. now rewrite <- app_assoc.
  - destruct (IH start (h ++ map (pair ls) pts)) as (h' & l & ->). exists (map (pair ls) pts ++ h'), l. now rewrite <- app_assoc.
  - exists []. eexists. now rewrite app_nil_r.
Qed.
Lemma parts_below cf a b : forall start h, below (parts_from cf start h a) (parts_from cf start h (a ++ b)).
Proof.
  induction a as [|[ls p|ls pts|st] a IH]; intros start h; cbn [parts_from app]; [|apply IH|apply IH|].
  - intros [|[|j]] c A N; try discriminate. cbn [nth_error] in N. destruct (parts_first cf b start h) as (h' & l & ->). injection N as <- <-.
    eexists. split; [reflexivity|]. unfold content_of. rewrite fold_left_app. apply grown_fold.
  - intros [|j] c A N.
    + exists A. split; [exact N|apply grown_refl].
    + exact (IH st [] j c A N).
Qed.
Lemma performed_app a b : forall ra rb, length ra = length a -> performed (a ++ b) (ra ++ rb) = performed a ra ++ performed b rb.
Proof.
  induction a as [|o a IH]; intros [|r ra] rb L; try discriminate; [reflexivity|]. cbn in L. injection L as L. cbn [app performed]. rewrite (IH _ _ L).
  destruct o; [reflexivity|reflexivity|]. destruct r; reflexivity.
Qed.
Lemma chunks_below cf t0 ops rs a b : length rs = length ops -> below (chunks_after cf t0 ops rs a) (chunks_after cf t0 ops rs (a ++ b)).
Proof.
  intros L. unfold chunks_after, parts. rewrite !map_app, !app_assoc, (performed_app (ops ++ map e_op a)); [apply parts_below|]. rewrite !app_length, !map_length, L. reflexivity.
Qed.
Lemma below_prefix (old a b : list part) : below a b -> below (old ++ a) (old ++ b).
Proof.
  intros H j c A N. destruct (Nat.lt_ge_cases j (length old)) as [L|L].
  - rewrite nth_error_app1 in N by assumption. exists A. split; [rewrite nth_error_app1 by assumption; exact N|apply grown_refl].
  - rewrite nth_error_app2 in N by assumption. rewrite nth_error_app2 by assumption. exact (H _ _ _ N).
Qed.
Lemma parts_last cf ops : forall t h, exists l0 A, parts_from cf t h ops = l0 ++ [(the_chunk cf (last_start t ops), A)].
Proof.
  induction ops as [|[ls p|ls pts|st'] ops IH]; intros t h; cbn [parts_from last_start].
  - exists []. eexists. reflexivity.
  - apply IH.
  - apply IH.
  - destruct (IH st' []) as (l0 & A & ->). exists ((the_chunk cf t, content_of (the_chunk cf t) h) :: l0). eexists. reflexivity.
Qed.

(** ** events that change nothing *)
Definition idle (cf : config) (t : Z) (o : dop) : Prop :=
  match o with OpBatch _ [q] => in_windowb (the_chunk cf t) (tp_ts q) = false | _ => False end.
Lemma content_out ch h ls q : in_windowb ch (tp_ts q) = false -> content_of ch (h ++ [(ls, q)]) = content_of ch h.
Proof. intros H. unfold content_of. rewrite fold_left_app. cbn [fold_left]. unfold ins at 1. cbn [snd]. now rewrite H. Qed.
Lemma parts_idle_end cf t b : Forall (idle cf t) b -> forall h, parts_from cf t h b = [(the_chunk cf t, content_of (the_chunk cf t) h)].
Proof.
  induction 1 as [|o b Ho H IH]; intros h; [reflexivity|]. destruct o as [ls p|ls [|q [|]]|]; cbn [idle] in Ho; try contradiction. cbn [parts_from map].
  rewrite IH. now rewrite (content_out _ _ _ _ Ho).
Qed.
Lemma parts_idle cf b a : forall start h, Forall (idle cf (last_start start a)) b -> parts_from cf start h (a ++ b) = parts_from cf start h a.
Proof.
  induction a as [|[ls p|ls pts|st] a IH]; intros start h H; cbn [parts_from app last_start] in *; [now apply parts_idle_end|now apply IH|now apply IH|]. f_equal. now apply IH.
Qed.

(** ** what the threads can log *)
Definition Rok (ls : list label) (p : tp) : Prop := set_ok ls /\ tp_ok p.
Lemma cli_end R p c D : cli R p c D -> exists es a, D es a.
Proof.
  induction 1 as [a D H|k D H IH|p i ch ls q D Hs H IH|i ch b ls q k D HR Hb H IH|k i ch D H IH|p q c D E H IH]; eauto.
  - apply (IH 0%nat (mkChunk SledStorage SledIndexer 0 0)).
  - destruct IH as (es & a & HD). eauto.
  - destruct (IH (Ok tt) ltac:(discriminate)) as (es & a & HD). eauto.
Qed.
Lemma rot_end cf p D : rot cf p D -> exists es a, D es a.
Proof.
  induction 1 as [a D H|s k D H IH|p q D E H IH]; eauto. destruct (IH (Ok tt)) as (es & a & HD). eauto.
Qed.
Lemma rot_ok_end cf p ph v es0 spec : rot_ok cf p ph v es0 spec -> exists es a, spec (es0 ++ es) a.
Proof.
  destruct ph as [|s q f|s nd g n|q r]; cbn [rot_ok].
  - intros (D & H & HR). apply rot_end in H as (es & a & H). eauto.
  - intros (D & k & _ & H & HR & _). specialize (H (Ok tt)). apply rot_end in H as (es & a & H). eauto.
  - intros (D & k & _ & H & HR & _). specialize (H (Ok tt)). apply rot_end in H as (es & a & H). eauto.
  - intros (D & k & _ & H & HR). apply rot_end in H as (es & a & H). eauto.
Qed.
Lemma rotations_swaps ss es rs : rotations ss es rs -> prefix (map fst es) (map OpSwap ss).
Proof.
  induction 1 as [|s r ss es rs Hr H IH|s ss].
  - exists []. reflexivity.
  - destruct IH as (c & E). exists c. cbn [map fst app]. now rewrite E.
  - exists (map OpSwap ss). reflexivity.
Qed.
Lemma session_written cs es rs : session cs es rs -> written (map fst es) = points_of cs.
Proof.
  assert (W: forall a b, written (a ++ b) = written a ++ written b).
  { induction a as [|[? ?|? ?|?] a IH]; intros b; cbn [written app]; rewrite ?IH; try reflexivity. now rewrite app_assoc. }
  induction 1 as [|ls p r cs es rs H IH|ls pts us cs es rs L H IH]; [reflexivity| |].
  - cbn [map fst written]. now rewrite IH.
  - rewrite map_app, W, IH. unfold points_of. cbn [map concat call_points]. f_equal. clear - L. revert us L. induction pts as [|p pts IH]; intros [|u us] L; try discriminate; [reflexivity|].
    cbn [combine map fst written app]. f_equal. apply IH. now injection L.
Qed.
Lemma session_puts cs es rs : session cs es rs -> Forall (fun e => match fst e with OpSwap _ => False | _ => True end) es.
Proof.
  induction 1 as [|ls p r cs es rs H IH|ls pts us cs es rs L H IH]; [constructor|constructor; [exact I|exact IH]|].
  apply Forall_app. split; [|exact IH]. apply Forall_forall. intros x Hx. apply in_map_iff in Hx as (y & <- & _). exact I.
Qed.
Lemma written_cat a b : written (a ++ b) = written a ++ written b.
Proof. induction a as [|[? ?|? ?|?] a IH]; cbn [written app]; rewrite ?IH; try reflexivity. now rewrite app_assoc. Qed.

Definition swapb (o : dop) : bool := match o with OpSwap _ => true | _ => false end.
Lemma starts_swaps cf ops : forall t, starts_ok cf t (filter swapb ops) -> starts_ok cf t ops.
Proof. induction ops as [|[? ?|? ?|?] ops IH]; intros t H; cbn [filter swapb starts_ok] in *; auto. destruct H as (H1 & H2 & H3). auto. Qed.
Lemma starts_cat cf b : forall a t, starts_ok cf t a -> starts_ok cf (last_start t a) b -> starts_ok cf t (a ++ b).
Proof. induction a as [|[? ?|? ?|?] a IH]; intros t H1 H2; cbn [app starts_ok last_start] in *; auto. destruct H1 as (X & Y & Z). auto. Qed.
Lemma ops_ok_pre cf t0 a b : ops_ok cf t0 (a ++ b) -> ops_ok cf t0 a.
Proof.
  intros (H1 & H2 & H3 & H4 & H5 & H6 & H7). rewrite written_cat, ?app_length in *. apply starts_app in H5 as [H5 _]. apply Forall_app in H6 as [H6 _].
  repeat split; try assumption. lia.
Qed.

(* the log as the sum of the threads' parts *)
Lemma log_length log n : Forall (fun e => e_who e <= n)%nat log ->
  length (written (map e_op log)) = list_sum (map (fun i => length (written (map fst (of_thread i log)))) (seq 0 (S n))).
Proof.
  induction 1 as [|e log He H IH].
  - cbn [map written length of_thread filter]. generalize (seq 0 (S n)). intros l. induction l as [|x l IHl]; [reflexivity|]. exact IHl.
  - assert (K: forall i, length (written (map fst (of_thread i (e :: log)))) =
      ((if (e_who e =? i)%nat then length (written [e_op e]) else 0) + length (written (map fst (of_thread i log))))%nat).
    { intros i. unfold of_thread. cbn [filter]. destruct (e_who e =? i)%nat; [|reflexivity]. cbn [map fst]. change (e_op e :: ?l) with ([e_op e] ++ l).
      now rewrite written_cat, app_length. }
    cbn [map]. change (e_op e :: ?l) with ([e_op e] ++ l). rewrite written_cat, app_length, IH. rewrite (map_ext _ _ K). clear K IH H.
    set (f := fun i => length (written (map fst (of_thread i log)))). set (k := length (written [e_op e])).
    assert (G: forall l, NoDup l -> (list_sum (map (fun i => (if (e_who e =? i)%nat then k else 0) + f i)%nat l) = (if in_dec Nat.eq_dec (e_who e) l then k else 0) + list_sum (map f l))%nat).
    { induction l as [|x l IHl]; intros N; [reflexivity|]. inversion N as [|y ys N1 N2]; subst. cbn [map list_sum fold_right] in *. unfold list_sum in IHl. rewrite (IHl N2).
      destruct (in_dec Nat.eq_dec (e_who e) (x :: l)) as [I1|I1], (in_dec Nat.eq_dec (e_who e) l) as [I2|I2]; destruct (Nat.eqb_spec (e_who e) x) as [E|E]; cbn [In] in *; try lia.
      all: exfalso; first [subst x; contradiction | destruct I1 as [I1|I1]; [congruence|contradiction] | apply I1; now right | apply I1; left; congruence]. }
    rewrite (G _ (seq_NoDup _ _)). destruct (in_dec Nat.eq_dec (e_who e) (seq 0 (S n))) as [I1|I1]; [reflexivity|]. exfalso. apply I1. apply in_seq. lia.
Qed.
Lemma of_thread_in e log : In e log -> In (e_op e, e_res e) (of_thread (e_who e) log).
Proof. intros H. unfold of_thread. apply (in_map (fun e => (e_op e, e_res e))). apply filter_In. split; [exact H|apply Nat.eqb_refl]. Qed.
Lemma of_thread_swaps log : (forall e, In e log -> swapb (e_op e) = (e_who e =? 0)%nat) -> filter swapb (map e_op log) = map fst (of_thread 0 log).
Proof.
  unfold of_thread. induction log as [|e log IH]; intros H; [reflexivity|]. cbn [map filter]. rewrite (H e) by now left. rewrite IH by (intros x Hx; apply H; now right).
  destruct (e_who e =? 0)%nat; reflexivity.
Qed.

(* what a log consists of, with the threads still running *)
Record log_of (starts : list Z) (cs : list (list wcall)) (log : list event) : Prop := mkLogOf {
  lo_rot : exists es rs, rotations starts (of_thread 0 log ++ es) rs;
  lo_cli : forall i c, nth_error cs i = Some c -> exists es rs, session c (of_thread (S i) log ++ es) rs;
  lo_who : Forall (fun e => e_who e <= length cs)%nat log }.

Lemma log_ops_ok cf t0 ops starts cs log : ops_ok cf t0 ops -> work_ok cf t0 ops starts cs -> log_of starts cs log ->
  ops_ok cf t0 (ops ++ map e_op log).
Proof.
  intros (K1 & K2 & K3 & K4 & K5 & K6 & K7) (W1 & W2 & W3) [L1 L2 L3].
  destruct L1 as (er & rr & L1). apply rotations_swaps in L1 as (sx & L1). rewrite map_app in L1.
  assert (SW: forall e, In e log -> swapb (e_op e) = (e_who e =? 0)%nat).
  { intros e He. pose proof (of_thread_in e log He) as Ho. rewrite Forall_forall in L3. specialize (L3 e He). destruct (e_who e) as [|i] eqn:Ew.
    - cbn [Nat.eqb]. apply (in_map fst) in Ho. cbn [fst] in Ho. assert (In (e_op e) (map OpSwap starts)) as X by (rewrite L1; apply in_app_iff; left; apply in_app_iff; now left).
      apply in_map_iff in X as (s & <- & _). reflexivity.
    - cbn [Nat.eqb]. destruct (nth_error cs i) as [c|] eqn:Ec; [|apply nth_error_None in Ec; lia]. destruct (L2 i c Ec) as (es & rs & HS). apply session_puts in HS.
      rewrite Forall_forall in HS. specialize (HS _ (proj2 (in_app_iff _ _ _) (or_introl Ho))). cbn [fst] in HS. now destruct (e_op e). }
  assert (TW: forall i c, nth_error cs i = Some c -> exists r, points_of c = written (map fst (of_thread (S i) log)) ++ r).
  { intros i c Hc. destruct (L2 i c Hc) as (es & rs & HS). apply session_written in HS. rewrite map_app, written_cat in HS. exists (written (map fst es)). now rewrite HS. }
  assert (T0: written (map fst (of_thread 0 log)) = []).
  { assert (X: forall l, (forall o, In o l -> swapb o = true) -> written l = []).
    { induction l as [|o l IHl]; intros Hl; [reflexivity|]. pose proof (Hl o (or_introl eq_refl)) as Ho. destruct o; try discriminate. cbn [written]. apply IHl. intros o Ho'. apply Hl. now right. }
    apply X. intros o Ho. assert (In o (map OpSwap starts)) as Y by (rewrite L1; apply in_app_iff; left; apply in_app_iff; now left). apply in_map_iff in Y as (s & <- & _). reflexivity. }
  repeat split; try assumption.
  - apply starts_cat; [exact K5|]. apply starts_swaps. rewrite (of_thread_swaps _ SW). rewrite L1, <- app_assoc in W1. apply starts_app in W1. apply W1.
  - rewrite written_cat. apply Forall_app. split; [exact K6|]. apply Forall_forall. intros r Hr.
    assert (X: exists e, In e log /\ In r (written [e_op e])).
    { clear - Hr. induction log as [|e log IH]; [contradiction|]. cbn [map] in Hr. change (e_op e :: map e_op log) with ([e_op e] ++ map e_op log) in Hr. rewrite written_cat in Hr.
      apply in_app_or in Hr as [Hr|Hr]; [exists e; split; [now left|exact Hr]|]. destruct (IH Hr) as (x & H1 & H2). exists x. split; [now right|exact H2]. }
    destruct X as (e & He & Hr'). pose proof (of_thread_in e log He) as Ho. specialize (SW e He). rewrite Forall_forall in L3. specialize (L3 e He). destruct (e_who e) as [|i] eqn:Ew.
    + cbn [Nat.eqb] in SW. destruct (e_op e); try discriminate. contradiction.
    + destruct (nth_error cs i) as [c|] eqn:Ec; [|apply nth_error_None in Ec; lia]. destruct (TW i c Ec) as (rest & Et).
      rewrite Forall_forall in W2. pose proof (W2 c (nth_error_In _ _ Ec)) as F. rewrite Forall_forall in F. apply F. rewrite Et. apply in_app_iff. left.
      clear - Ho Hr'. apply (in_map fst) in Ho. cbn [fst] in Ho. apply in_split in Ho as (a & b & ->). change (e_op e :: b) with ([e_op e] ++ b). rewrite !written_cat. apply in_app_iff. right. apply in_app_iff. now left.
  - rewrite written_cat, app_length. rewrite (log_length log (length cs) L3).
    enough (list_sum (map (fun i => length (written (map fst (of_thread i log)))) (seq 0 (S (length cs)))) <= length (concat (map points_of cs)))%nat by lia.
    cbn [seq map list_sum fold_right]. rewrite T0. cbn [length Nat.add]. rewrite <- seq_shift, map_map.
    assert (G: forall (f : nat -> nat) (l : list (list wcall)), (forall i c, nth_error l i = Some c -> (f i <= length (points_of c))%nat) -> (list_sum (map f (seq 0 (length l))) <= length (concat (map points_of l)))%nat).
    { intros f l. revert f. induction l as [|c l IHl]; intros f Hf; [cbn; lia|]. cbn [length seq map list_sum fold_right concat]. rewrite app_length. rewrite <- seq_shift, map_map.
      specialize (IHl (fun i => f (S i)) (fun i c' Hi => Hf (S i) c' Hi)). specialize (Hf 0%nat c eq_refl). unfold list_sum in IHl. lia. }
    apply G. intros i c Hc. destruct (TW i c Hc) as (r & ->). rewrite app_length. lia.
Qed.
