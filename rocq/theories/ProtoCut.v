(* Proofs about write requests whose body was cut short. *)
From Coq Require Import ZifyBool ZifyNat.
From Verif Require Import Rust Proto ProtoSpec ProtoProofs ProtoRound.

Lemma cut_nil p : ~ cut p [].
Proof. intros (r & Hr & E). apply Hr. symmetry in E. apply app_eq_nil in E. tauto. Qed.
Lemma cut_app p a b : cut p (a ++ b) -> cut p a \/ exists q, p = a ++ q /\ cut q b.
Proof.
  intros (r & Hr & E). revert p E. induction a as [|x a IH]; intros p E.
  - right. exists p. split; [reflexivity|]. exists r. split; assumption.
  - destruct p as [|y p].
    + left. exists (x :: a). split; [discriminate|reflexivity].
    + cbn in E. assert (y = x) as -> by congruence. assert (E': a ++ b = p ++ r) by congruence.
      destruct (IH p E') as [(r' & Hr' & ->)|(q & -> & Hq)].
      * left. exists r'. split; [assumption|reflexivity].
      * right. exists q. split; [reflexivity|assumption].
Qed.
Lemma cut_concat {A} (f : A -> bytes) l : forall p, cut p (concat (map f l)) ->
  exists l1 x l2 q, l = l1 ++ x :: l2 /\ p = concat (map f l1) ++ q /\ cut q (f x).
Proof.
  induction l as [|a l IH]; intros p H; cbn [map concat] in H; [destruct (cut_nil _ H)|].
  destruct (cut_app _ _ _ H) as [H'|(q & -> & H')].
  - exists [], a, l, p. split; [reflexivity|]. split; [reflexivity|assumption].
  - destruct (IH q H') as (l1 & x & l2 & q' & -> & -> & Hq). exists (a :: l1), x, l2, q'.
    split; [reflexivity|]. split; [|assumption]. cbn [map concat]. apply app_assoc.
Qed.
Lemma cut_single p x b : cut p ([x] ++ b) -> p = [] \/ exists q, p = [x] ++ q /\ cut q b.
Proof.
  intros H. destruct (cut_app _ _ _ H) as [(r & Hr & E)|H']; [|right; exact H'].
  destruct p as [|y p]; [left; reflexivity|]. exfalso. cbn in E. assert (E': [] = p ++ r) by congruence.
  symmetry in E'. apply app_eq_nil in E'. tauto.
Qed.
Lemma cut_length p b : cut p b -> (length p < length b)%nat.
Proof. intros (r & Hr & ->). rewrite app_length. destruct r; [congruence|]. cbn. lia. Qed.

(* ------------------------------------------------------------------ *)
(** * Fields cut short *)

Lemma read_varint_cut n : forall k shift acc z p, 0 <= z -> cut p (varint n z) -> read_varint k shift acc p = None.
Proof.
  induction n as [|n IH]; intros k shift acc z p Hz H; [destruct (cut_nil _ H)|]. cbn [varint] in H.
  destruct k as [|k]; [reflexivity|]. destruct (z <? 128) eqn:E.
  - destruct (cut_single p z [] H) as [->|(q & -> & Hq)]; [reflexivity|destruct (cut_nil _ Hq)].
  - destruct (cut_single p _ (varint n (z / 128)) H) as [->|(q & -> & Hq)]; [reflexivity|].
    cbn [app read_varint]. pose proof (Z.mod_pos_bound z 128). replace (z mod 128 + 128 <? 128) with false by lia.
    apply (IH _ _ _ (z / 128)); [apply Z.div_pos; lia|assumption].
Qed.
Lemma read_varint64_cut n z p : 0 <= z -> cut p (varint n z) -> read_varint64 p = None.
Proof. apply read_varint_cut. Qed.
Lemma tag_single n wt : 0 <= n < 16 -> 0 <= wt <= 5 -> tag n wt = [n * 8 + wt].
Proof. intros Hn Hw. unfold tag, varint32. cbn [varint]. replace (n * 8 + wt <? 128) with true by lia. reflexivity. Qed.

(* the loop on one field cut short *)
Lemma fields_cut {M} (field : Z -> Z -> Z -> bytes -> M -> M * option bytes) number wt b p n short m (P : M -> Prop) :
  0 < number < 16 -> 0 <= wt <= 5 -> cut p (tag number wt ++ b) -> P m ->
  (forall q, cut q b -> P (fst (field short number wt q m)) /\ (snd (field short number wt q m) = None \/ snd (field short number wt q m) = Some [])) ->
  P (fst (fields field n short p m)).
Proof.
  intros Hn Hw H Hm Hq. destruct n as [|n]; [exact Hm|]. rewrite tag_single in H by lia.
  destruct (cut_single _ _ _ H) as [->|(q & -> & Hc)]; [exact Hm|].
  assert (R: read_tag ([number * 8 + wt] ++ q) = Some (number, wt, q)).
  { rewrite <- tag_single by lia. apply read_tag_ok; lia. }
  cbn [fields]. cbn [app]. cbn [app] in R. rewrite R. destruct (Hq q Hc) as [H1 H2].
  destruct (field short number wt q m) as [m' o]. cbn [fst snd] in *. destruct H2 as [-> | ->]; [exact H1|].
  destruct n; exact H1.
Qed.
(* what came before is read, then the cut field *)
Lemma fields_before {M} (field : Z -> Z -> Z -> bytes -> M -> M * option bytes) a q n short m m' (P : M -> Prop) :
  0 <= short -> (length (a ++ q) < n)%nat -> eats field a m m' ->
  (forall n, (length q < n)%nat -> P (fst (fields field n short q m'))) -> P (fst (fields field n short (a ++ q) m)).
Proof. intros Hs Hn He H. destruct (He short q n Hs Hn) as (n' & Hn' & ->). apply H, Hn'. Qed.

Lemma merge_message_cut {A} (r : reader A) short size body p a :
  Z.of_nat (length body) = size -> size < 2 ^ 32 -> cut p (varint32 size ++ body) ->
  (fst (merge_message r short p a) = a \/
   exists short' q, 0 <= short' /\ cut q body /\ fst (merge_message r short p a) = fst (r short' q a)) /\
  (snd (merge_message r short p a) = None \/ snd (merge_message r short p a) = Some []).
Proof.
  intros E Hl H. unfold merge_message. destruct (cut_app _ _ _ H) as [H'|(q & -> & Hq)].
  - rewrite (read_varint64_cut 5 size p) by (try assumption; lia). split; left; reflexivity.
  - rewrite read_varint64_of32 by lia. pose proof (cut_length _ _ Hq) as L.
    destruct (Z.of_nat (length q) + short <? size); [split; left; reflexivity|].
    replace (Z.to_nat (Z.min size (Z.of_nat (length q)))) with (length q) by lia. rewrite firstn_all, skipn_all.
    destruct (r (Z.max 0 (size - Z.of_nat (length q))) q a) as [a' ok] eqn:R. cbn [fst snd]. split.
    + right. exists (Z.max 0 (size - Z.of_nat (length q))), q. split; [lia|]. split; [assumption|]. rewrite R. reflexivity.
    + destruct ok; [right|left]; reflexivity.
Qed.

(* ------------------------------------------------------------------ *)
(** * A sample cut short is a sample at time 0 *)

Lemma sample_cut m p short : sample_ok m -> sample_plain m -> 0 <= short -> cut p (sample_write m) ->
  sm_ts (fst (sample_read short p sample_new)) = 0.
Proof.
  intros (Hv & Ht & _) Hpl Hs H. destruct m as [v t u]. unfold sample_plain in Hpl. cbn [sm_unk] in Hpl. subst u.
  unfold sample_write in H. cbn [sm_value sm_ts sm_unk] in *. change (write_unknowns []) with (@nil Z) in H. rewrite app_nil_r in H.
  unfold sample_read, reads.
  assert (D: forall n p, cut p (w_double 1 v) -> sm_ts (fst (fields sample_field n short p sample_new)) = 0).
  { clear H p. intros n p H. apply (fields_cut sample_field 1 WFixed64 (le_bytes 8 v) p n short sample_new (fun m => sm_ts m = 0)); try reflexivity; try (unfold WFixed64; lia); [exact H|].
    intros q Hq. unfold sample_field, sample_new. change (1 =? 1) with true. cbn match. unfold read_double. change (WFixed64 =? WFixed64) with true. cbn match.
    unfold read_fixed, read_bytes. pose proof (cut_length _ _ Hq) as L. rewrite le_length in L.
    replace (Z.of_nat (length q) <? Z.of_nat 8) with true by lia. cbn. split; [reflexivity|left; reflexivity]. }
  assert (I: forall n m p, sm_ts m = 0 -> cut p (w_int64 2 t) -> sm_ts (fst (fields sample_field n short p m)) = 0).
  { clear H p D. intros n m p Hm H. apply (fields_cut sample_field 2 WVarint (varint64 (wrapu 64 t)) p n short m (fun m => sm_ts m = 0)); try assumption; try (unfold WVarint; lia).
    intros q Hq. destruct m as [v' t' u']. cbn [sm_ts] in Hm. unfold sample_field. change (2 =? 1) with false. change (2 =? 2) with true. cbn match.
    unfold read_int64. change (WVarint =? WVarint) with true. cbn match.
    rewrite (read_varint64_cut 10 (wrapu 64 t)) by (try assumption; apply wrapu_range). cbn [fst snd sm_ts]. split; [exact Hm|left; reflexivity]. }
  destruct (cut_app _ _ _ H) as [H'|(q & -> & Hq)].
  - unfold opt in H'. destruct (nonzero_f64 v); [|destruct (cut_nil _ H')]. apply D, H'.
  - unfold opt in Hq. destruct (negb (t =? 0)) eqn:E; [|destruct (cut_nil _ Hq)].
    apply (fields_before sample_field (opt (nonzero_f64 v) (w_double 1 v)) q (S (length (opt (nonzero_f64 v) (w_double 1 v) ++ q))) short sample_new
             (mkSample (if nonzero_f64 v then v else 0) 0 []) (fun m => sm_ts m = 0)); [assumption|lia| |].
    + apply eats_opt with (m' := mkSample v 0 []).
      * apply eats_field; [lia|wires; lia|]. intros sh rest Hsh. cbn [sample_field sample_new]. change (1 =? 1) with true. cbn match.
        rewrite read_double_ok by assumption. reflexivity.
      * intros ->. reflexivity.
      * intros ->. reflexivity.
    + intros n _. apply I; [reflexivity|exact Hq].
Qed.

(* ------------------------------------------------------------------ *)
(** * Series and requests *)

Lemma repeated_cut {M A} (field : Z -> Z -> Z -> bytes -> M -> M * option bytes) number (r : reader A) new
    (write : A -> bytes) (size : A -> Z) (back : A -> A) (set : list A -> M) l p n short :
  0 < number < 16 -> 0 <= short -> (length p < n)%nat ->
  (forall short wt b l, field short number wt b (set l) = let '(l', rest) := read_repeated r new short wt b l in (set l', rest)) ->
  (forall a, In a l -> Z.of_nat (length (write a)) = size a /\ size a < 2 ^ 32 /\
                       forall short, 0 <= short -> r short (write a) new = (back a, true)) ->
  cut p (concat (map (fun x => w_message number (size x) (write x)) l)) ->
  exists l1 x l2, l = l1 ++ x :: l2 /\
    (fst (fields field n short p (set [])) = set (map back l1) \/
     fst (fields field n short p (set [])) = set (map back l1 ++ [new]) \/
     exists short' q, 0 <= short' /\ cut q (write x) /\
       fst (fields field n short p (set [])) = set (map back l1 ++ [fst (r short' q new)])).
Proof.
  intros Hn Hs Hlen Hf H Hc. destruct (cut_concat _ _ _ Hc) as (l1 & x & l2 & q & -> & -> & Hq).
  exists l1, x, l2. split; [reflexivity|].
  assert (Hx: Z.of_nat (length (write x)) = size x /\ size x < 2 ^ 32).
  { destruct (H x) as (E & E2 & _); [apply in_or_app; right; left; reflexivity|]. auto. }
  apply (fields_before field _ q n short (set []) (set (map back l1)) (fun m => m = set (map back l1) \/ m = set (map back l1 ++ [new]) \/
     exists short' q, 0 <= short' /\ cut q (write x) /\ m = set (map back l1 ++ [fst (r short' q new)]))); [assumption|assumption| |].
  - apply (eats_repeated field number r new write size back set [] l1); [lia|exact Hf|].
    intros a Ha. apply H. apply in_or_app. left. exact Ha.
  - intros k _. apply (fields_cut field number WLen (varint32 (size x) ++ write x) q k short).
    + assumption.
    + wires; lia.
    + exact Hq.
    + left. reflexivity.
    + intros q' Hq'. rewrite Hf. unfold read_repeated. change (WLen =? WLen) with true. cbn match.
      destruct Hx as [E1 E2]. destruct (merge_message_cut r short (size x) (write x) q' new E1 E2 Hq') as [M1 M2].
      destruct (merge_message r short q' new) as [a o]. cbn [fst snd] in *. split; [|assumption].
      destruct M1 as [->|(sh & q2 & A1 & A2 & ->)]; [right; left; reflexivity|right; right]. exists sh, q2. auto.
Qed.

Lemma plabel_plain_back ls : map (fun x : plabel => x) ls = ls.
Proof. apply map_id. Qed.
Lemma pseries_cut m p short : pseries_ok m -> pseries_plain m -> pseries_size m < 2 ^ 32 -> 0 <= short -> cut p (pseries_write m) ->
  remnant (fst (pseries_read short p pseries_new)) (pseries_back m).
Proof.
  intros (Hl & Hss & _) (Pl & Ps & Pu) Hsz Hs H. destruct m as [ls ss u]. cbn [ps_unk] in Pu. subst u.
  rewrite Forall_forall in Hl, Hss. unfold pseries_write, pseries_size, pseries_plain, pseries_back in *. cbn [ps_labels ps_samples ps_unk] in *.
  change (write_unknowns []) with (@nil Z) in H. rewrite app_nil_r in H.
  pose proof (repeated_nonneg plabel_size ls plabel_size_nonneg). pose proof (repeated_nonneg sample_size ss sample_size_nonneg).
  pose proof (unknowns_size_nonneg []).
  assert (AL: forall a, In a ls -> Z.of_nat (length (plabel_write a)) = plabel_size a /\ plabel_size a < 2 ^ 32 /\
            forall short, 0 <= short -> plabel_read short (plabel_write a) plabel_new = (a, true)).
  { intros a Ha. pose proof (repeated_size plabel_size ls a plabel_size_nonneg Ha).
    split; [apply plabel_length; auto|]. split; [lia|]. intros sh Hsh. apply plabel_round; auto. lia. }
  assert (AS: forall a, In a ss -> Z.of_nat (length (sample_write a)) = sample_size a /\ sample_size a < 2 ^ 32 /\
            forall short, 0 <= short -> sample_read short (sample_write a) sample_new = (sample_back a, true)).
  { intros a Ha. pose proof (repeated_size sample_size ss a sample_size_nonneg Ha).
    split; [apply sample_length; auto|]. split; [lia|]. intros sh Hsh. apply sample_round; auto. lia. }
  unfold pseries_read, reads. destruct (cut_app _ _ _ H) as [H'|(q & -> & Hq)].
  - left. destruct (repeated_cut pseries_field 1 plabel_read plabel_new plabel_write plabel_size (fun x => x) (fun l => mkPSeries l [] [])
        ls p (S (length p)) short) as (l1 & x & l2 & _ & [E|[E|(sh & q & _ & _ & E)]]); try assumption; try lia; try reflexivity;
      change pseries_new with (mkPSeries [] [] []); rewrite E; reflexivity.
  - apply (fields_before pseries_field _ q _ short pseries_new (mkPSeries ls [] []) (fun y => remnant y (mkPSeries ls (map sample_back ss) []))).
    + assumption.
    + lia.
    + pose proof (eats_repeated pseries_field 1 plabel_read plabel_new plabel_write plabel_size (fun x => x)
                  (fun l => mkPSeries l [] []) [] ls ltac:(lia)) as X.
      rewrite map_id in X. apply X; [reflexivity|exact AL].
    + intros n Hn.
      destruct (repeated_cut pseries_field 2 sample_read sample_new sample_write sample_size sample_back (fun l => mkPSeries ls l [])
          ss q n short) as (l1 & x & l2 & -> & D); try assumption; try lia; try reflexivity.
      right. assert (B: map sample_back (l1 ++ x :: l2) = map sample_back l1 ++ map sample_back (x :: l2)) by apply map_app.
      destruct D as [E|[E|(sh & q' & Hsh & Hq' & E)]]; rewrite E; cbn [ps_labels ps_samples]; (split; [reflexivity|]);
        exists (map sample_back l1), (map sample_back (x :: l2)); (split; [exact B|]).
      * left. reflexivity.
      * right. exists sample_new. split; [discriminate|]. split; reflexivity.
      * right. eexists. split; [discriminate|]. split; [reflexivity|].
        apply (sample_cut x); try assumption.
        -- apply Hss. apply in_or_app. right. left. reflexivity.
        -- rewrite Forall_forall in Ps. apply Ps. apply in_or_app. right. left. reflexivity.
Qed.

Theorem write_request_cut m p : write_request_ok m -> Forall pseries_plain (wq_series m) -> wq_unk m = [] ->
  write_request_size m < 2 ^ 32 -> cut p (write_request_write m) ->
  exists l1 x l2, wq_series m = l1 ++ x :: l2 /\
    (wq_series (fst (merge_from write_request_read p write_request_new)) = map pseries_back l1 \/
     exists y, wq_series (fst (merge_from write_request_read p write_request_new)) = map pseries_back l1 ++ [y] /\
       remnant y (pseries_back x)).
Proof.
  intros (Hl & _) Hpl Hu Hsz H. destruct m as [l u]. cbn [wq_unk wq_series] in *. subst u. rewrite Forall_forall in Hl, Hpl.
  pose proof (cut_length _ _ H) as CL. pose proof (write_request_length (mkWriteReq l []) ltac:(split; [apply Forall_forall; exact Hl|constructor])) as WL.
  unfold write_request_write, write_request_size in *. cbn [wq_series wq_unk] in *. change (write_unknowns []) with (@nil Z) in H. rewrite app_nil_r in H.
  pose proof (unknowns_size_nonneg []). pose proof (repeated_nonneg pseries_size l pseries_size_nonneg).
  unfold merge_from, write_request_read, reads.
  destruct (repeated_cut write_request_field 1 pseries_read pseries_new pseries_write pseries_size pseries_back (fun l => mkWriteReq l [])
     l p (S (length p)) (2 ^ 64 - 1 - Z.of_nat (length p))) as (l1 & x & l2 & -> & D); try assumption; try lia; try reflexivity.
  - intros a Ha. pose proof (repeated_size pseries_size l a pseries_size_nonneg Ha).
    split; [apply pseries_length; auto|]. split; [lia|]. intros sh Hsh. apply pseries_round; auto. lia.
  - exists l1, x, l2. split; [reflexivity|].
    assert (Hx: In x (l1 ++ x :: l2)) by (apply in_or_app; right; left; reflexivity).
    pose proof (repeated_size pseries_size _ x pseries_size_nonneg Hx).
    destruct D as [E|[E|(sh & q & Hsh & Hq & E)]].
    + left. change write_request_new with (mkWriteReq [] []). rewrite E. reflexivity.
    + right. change write_request_new with (mkWriteReq [] []). rewrite E. eexists. split; [reflexivity|]. left. reflexivity.
    + right. change write_request_new with (mkWriteReq [] []). rewrite E. eexists. split; [reflexivity|]. apply pseries_cut; auto. lia.
Qed.
