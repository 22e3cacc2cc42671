(* Proofs: framing of log entries, segments. *)
From Coq Require Import ZifyBool ZifyNat.
From Verif Require Import Rust BitsProofs GorillaBits Wal WalSpec CrcProofs.

(** ** entries *)
Lemma build_facts seq ts : Forall is_byte (pushed ts) ->
  e_seq (build seq ts) = seq /\ e_type (build seq ts) = 0 /\ e_content (build seq ts) = pushed ts /\ e_crc (build seq ts) = crc32 (pushed ts).
Proof.
  unfold build. induction ts as [|t ts IH] using rev_ind; intros F; [repeat split; reflexivity|].
  unfold pushed in *. rewrite map_app, concat_app in *. cbn [map concat] in *. rewrite app_nil_r in *. apply Forall_app in F as [F1 F2].
  specialize (IH F1) as (I1 & I2 & I3 & I4). rewrite fold_left_app. cbn [fold_left]. destruct t as [c|]; cbn [do_step].
  - unfold entry_push. cbn [e_seq e_type e_content e_crc]. rewrite I1, I2, I3, I4. repeat split. now apply write32.
  - rewrite app_nil_r. unfold entry_clone. cbn [e_seq e_type e_content e_crc]. auto.
Qed.

Lemma built_facts e : built e -> 0 <= e_seq e < 2 ^ 64 /\ e_type e = 0 /\ Forall is_byte (e_content e) /\ e_crc e = crc32 (e_content e).
Proof.
  intros (seq & ts & H1 & H2 & ->). destruct (build_facts seq ts H2) as (A & B & C & D). rewrite A, B, C, D. auto.
Qed.

Lemma push_same seq ts ts' : Forall is_byte (pushed ts) -> pushed ts = pushed ts' -> build seq ts = build seq ts'.
Proof.
  intros F E. destruct (build_facts seq ts F) as (A & B & C & D). rewrite E in F. destruct (build_facts seq ts' F) as (A' & B' & C' & D').
  destruct (build seq ts) as [f1 f2 f3 f4], (build seq ts') as [g1 g2 g3 g4]. cbn [e_seq e_type e_content e_crc] in *. congruence.
Qed.

(** ** reading *)
Lemma take_app a b n : length a = n -> take n (a ++ b) = Some (a, b).
Proof.
  intros L. unfold take. rewrite app_length, L. replace (n <=? n + length b)%nat with true by lia.
  rewrite firstn_app, skipn_app, L, Nat.sub_diag, <- L, firstn_all, skipn_all, app_nil_r. reflexivity.
Qed.

(* what a reader finds, for any content *)
Lemma parse_any e rest : built e ->
  let l := Z.to_nat (Z.of_nat (length (e_content e)) mod 65536) in
  parse_entry (get_bytes e ++ rest) =
  let tail := skipn l (e_content e) ++ be_bytes 4 (crc32 (e_content e)) ++ rest in
  Some (mkParsed (e_seq e) 0 (firstn l (e_content e)) (from_be (firstn 4 tail)), skipn 4 tail).
Proof.
  intros B. destruct (built_facts e B) as (H1 & H2 & H3 & H4). intros l. cbv zeta. unfold get_bytes. rewrite H2, H4, <- !app_assoc.
  unfold parse_entry. rewrite take_app by apply length_be_bytes. rewrite take_app by reflexivity. rewrite take_app by apply length_be_bytes.
  assert (E: from_be (be_bytes 2 (wrapu 16 (Z.of_nat (length (e_content e))))) = Z.of_nat (length (e_content e)) mod 65536).
  { rewrite from_be_be_bytes. unfold wrapu. change (2 ^ (8 * Z.of_nat 2)) with 65536. change (2 ^ 16) with 65536. apply Z.mod_mod. lia. }
  rewrite E. fold l.
  assert (L: (l <= length (e_content e))%nat).
  { unfold l. pose proof (Z.mod_le (Z.of_nat (length (e_content e))) 65536). lia. }
  rewrite <- (firstn_skipn l (e_content e)) at 1. rewrite <- app_assoc. rewrite take_app by (apply firstn_length_le; exact L).
  set (tail := skipn l (e_content e) ++ be_bytes 4 (crc32 (e_content e)) ++ rest).
  unfold take. assert ((4 <=? length tail)%nat = true) as ->.
  { unfold tail. rewrite !app_length, length_be_bytes. lia. }
  f_equal. f_equal. f_equal; [|reflexivity..]. rewrite from_be_be_bytes. apply Z.mod_small. exact H1.
Qed.

Lemma parse_fits e rest : built e -> fits e -> parse_entry (get_bytes e ++ rest) = Some (said e, rest).
Proof.
  intros B F. rewrite (parse_any e rest B). destruct (built_facts e B) as (H1 & H2 & H3 & H4). unfold fits in F.
  assert (Z.to_nat (Z.of_nat (length (e_content e)) mod 65536) = length (e_content e)) as -> by (rewrite Z.mod_small by lia; lia).
  rewrite firstn_all, skipn_all. cbn [app].
  assert (E: forall l : bytes, length l = 4%nat -> firstn 4 (l ++ rest) = l /\ skipn 4 (l ++ rest) = rest).
  { intros l L. rewrite firstn_app, skipn_app, L, Nat.sub_diag, app_nil_r, <- L, firstn_all, skipn_all. auto. }
  destruct (E (be_bytes 4 (crc32 (e_content e))) (length_be_bytes _ _)) as [-> ->]. unfold said. rewrite H2, from_be_be_bytes, Z.mod_small; [reflexivity|].
  exact (crc32_range _).
Qed.

Lemma frame_len e : Z.of_nat (length (get_bytes e)) = entry_len e + 2.
Proof. unfold get_bytes, entry_len. rewrite !app_length, !length_be_bytes. cbn [length]. lia. Qed.
Lemma frame_len' e : length (get_bytes e) = (15 + length (e_content e))%nat.
Proof. pose proof (frame_len e). unfold entry_len in *. lia. Qed.
Lemma frame_bytes e : built e -> Forall is_byte (get_bytes e).
Proof.
  intros B. destruct (built_facts e B) as (H1 & H2 & H3 & H4). unfold get_bytes. rewrite H2.
  repeat (apply Forall_app; split); try apply be_bytes_byte; [|assumption]. constructor; [unfold is_byte; lia|constructor].
Qed.

(* a frame cut short does not parse *)
Lemma take_spec n bs a b : take n bs = Some (a, b) -> bs = a ++ b /\ length a = n.
Proof.
  unfold take. destruct (n <=? length bs)%nat eqn:E; [|discriminate]. intros Q. assert (a = firstn n bs) as -> by congruence. assert (b = skipn n bs) as -> by congruence.
  split; [symmetry; apply firstn_skipn|apply firstn_length_le; lia].
Qed.
Lemma parse_len bs p rest : parse_entry bs = Some (p, rest) -> length bs = (15 + length (p_content p) + length rest)%nat.
Proof.
  unfold parse_entry. destruct (take 8 bs) as [[q b1]|] eqn:E1; [|discriminate]. destruct (take 1 b1) as [[t b2]|] eqn:E2; [|discriminate].
  destruct (take 2 b2) as [[l b3]|] eqn:E3; [|discriminate]. destruct (take _ b3) as [[c b4]|] eqn:E4; [|discriminate].
  destruct (take 4 b4) as [[k b5]|] eqn:E5; [|discriminate]. intros Q.
  assert (p = mkParsed (from_be q) (from_be t) c (from_be k)) as -> by congruence. assert (b5 = rest) as -> by congruence. cbn [p_content].
  apply take_spec in E1 as [-> L1]. apply take_spec in E2 as [-> L2]. apply take_spec in E3 as [-> L3]. apply take_spec in E4 as [-> L4]. apply take_spec in E5 as [-> L5].
  rewrite !app_length. lia.
Qed.
Lemma take_mono n a x y r : take n a = Some (x, y) -> take n (a ++ r) = Some (x, y ++ r).
Proof. intros H. apply take_spec in H as [-> L]. rewrite <- app_assoc. now apply take_app. Qed.
Lemma parse_mono bs p rest r : parse_entry bs = Some (p, rest) -> parse_entry (bs ++ r) = Some (p, rest ++ r).
Proof.
  unfold parse_entry. destruct (take 8 bs) as [[q b1]|] eqn:E1; [|discriminate]. destruct (take 1 b1) as [[t b2]|] eqn:E2; [|discriminate].
  destruct (take 2 b2) as [[l b3]|] eqn:E3; [|discriminate]. destruct (take _ b3) as [[c b4]|] eqn:E4; [|discriminate].
  destruct (take 4 b4) as [[k b5]|] eqn:E5; [|discriminate]. intros Q.
  rewrite (take_mono _ _ _ _ r E1), (take_mono _ _ _ _ r E2), (take_mono _ _ _ _ r E3), (take_mono _ _ _ _ r E4), (take_mono _ _ _ _ r E5). congruence.
Qed.
Lemma parse_cut e n : built e -> fits e -> (n < length (get_bytes e))%nat -> parse_entry (firstn n (get_bytes e)) = None.
Proof.
  intros B F L. destruct (parse_entry (firstn n (get_bytes e))) as [[p rest]|] eqn:E; [|reflexivity]. exfalso.
  pose proof (parse_len _ _ _ E) as L1. apply (parse_mono _ _ _ (skipn n (get_bytes e))) in E. rewrite firstn_skipn in E.
  pose proof (parse_fits e [] B F) as P. rewrite app_nil_r in P. rewrite P in E.
  assert (p = said e) as -> by congruence. assert (R: rest ++ skipn n (get_bytes e) = []) by congruence. apply (f_equal (@length Z)) in R.
  rewrite app_length, skipn_length in R. cbn [length] in R. lia.
Qed.

(* reading a log cut anywhere gives the entries that are whole *)
Fixpoint whole (n : nat) (es : list entry) : nat :=
  match es with
  | [] => O
  | e :: es' => if (length (get_bytes e) <=? n)%nat then S (whole (n - length (get_bytes e)) es') else O
  end.
Lemma frames_cons e es : frames (e :: es) = get_bytes e ++ frames es.
Proof. reflexivity. Qed.
Lemma whole_spec n : forall es k, (k <= length es)%nat -> ((length (frames (firstn k es)) <= n)%nat <-> (k <= whole n es)%nat).
Proof.
  intros es. revert n. induction es as [|e es IH]; intros n k Hk; [cbn in Hk; assert (k = O) as -> by lia; cbn; lia|].
  destruct k as [|k]; [cbn; lia|]. cbn [firstn whole]. rewrite frames_cons, app_length. cbn [length] in Hk.
  destruct (length (get_bytes e) <=? n)%nat eqn:E.
  - specialize (IH (n - length (get_bytes e))%nat k ltac:(lia)). lia.
  - lia.
Qed.
Lemma parse_cut_log : forall es fuel n, Forall built es -> Forall fits es -> (n <= length (frames es))%nat -> (n <= fuel)%nat ->
  parse_entries fuel (firstn n (frames es)) = map said (firstn (whole n es) es).
Proof.
  induction es as [|e es IH]; intros fuel n B F L Fu.
  - cbn in L. assert (n = O) as -> by lia. destruct fuel; reflexivity.
  - apply Forall_cons_iff in B as [B1 B2]. apply Forall_cons_iff in F as [F1 F2]. rewrite frames_cons in *. rewrite app_length in L.
    pose proof (frame_len' e) as Le. cbn [whole]. destruct (length (get_bytes e) <=? n)%nat eqn:E.
    + rewrite firstn_app, firstn_all2 by lia. destruct fuel as [|fuel]; [lia|]. cbn [parse_entries]. rewrite (parse_fits e _ B1 F1).
      cbn [said p_crc p_content]. rewrite Z.eqb_refl. cbn [firstn map]. f_equal. apply IH; [assumption..| |]; lia.
    + rewrite firstn_app. replace (n - length (get_bytes e))%nat with O by lia. cbn [firstn]. rewrite app_nil_r. destruct fuel as [|fuel]; [reflexivity|].
      cbn [parse_entries]. rewrite parse_cut; [reflexivity|assumption|assumption|lia].
Qed.
Theorem read_cut es n : Forall built es -> Forall fits es -> (n <= length (frames es))%nat ->
  exists k, (k <= length es)%nat /\ read_log (firstn n (frames es)) = map said (firstn k es) /\
    (length (frames (firstn k es)) <= n)%nat /\ (forall j, (k < j <= length es)%nat -> (n < length (frames (firstn j es)))%nat).
Proof.
  intros B F L. exists (whole n es).
  assert (W: (whole n es <= length es)%nat).
  { clear. revert n. induction es as [|e es IH]; intros n; cbn [whole length]; [lia|]. destruct (_ <=? _)%nat; [|lia]. specialize (IH (n - length (get_bytes e))%nat). lia. }
  split; [exact W|]. split.
  - unfold read_log. apply parse_cut_log; [assumption..|]. rewrite firstn_length. lia.
  - split; [apply whole_spec; [assumption|lia]|]. intros j Hj. pose proof (whole_spec n es j ltac:(lia)). lia.
Qed.
Theorem read_all es : Forall built es -> Forall fits es -> read_log (frames es) = map said es.
Proof.
  intros B F. pose proof (parse_cut_log es (length (frames es)) (length (frames es)) B F ltac:(lia) ltac:(lia)) as H.
  rewrite firstn_all in H. unfold read_log. rewrite H. f_equal. apply firstn_all2. apply (whole_spec _ es (length es)); [lia|]. now rewrite firstn_all.
Qed.

(** ** Immediate *)
Definition magic : bytes := be_bytes 8 WAL_MAGIC_NUMBER.

Lemma frames_bytes es : Forall built es -> Forall is_byte (frames es).
Proof. induction 1 as [|e es B _ IH]; [constructor|]. rewrite frames_cons. apply Forall_app. split; [now apply frame_bytes|assumption]. Qed.

Lemma immediate_step out es e : Forall built es -> built e ->
  write_entry (mkSeg (mkWriter out []) CNone (crc64 (frames es))) e =
  (Ok tt, mkSeg (mkWriter (out ++ get_bytes e) []) CNone (crc64 (frames (es ++ [e])))).
Proof.
  intros B Be. unfold write_entry. cbn [s_cache seg_write s_writer wr_write wr_plan seg_flush write_contents snd s_crc wr_out].
  rewrite write64 by (try apply frames_bytes; try apply frame_bytes; assumption).
  unfold frames. rewrite map_app, concat_app. cbn [map concat]. now rewrite app_nil_r.
Qed.
Theorem immediate es : Forall built es ->
  let '(rs, s) := write_entries (seg_new PImmediate good_writer) es in
  rs = map (fun _ => Ok tt) es /\ wr_out (s_writer s) = be_bytes 8 WAL_MAGIC_NUMBER ++ frames es /\
  let '(r, s') := seg_close s in
  r = Ok tt /\ wr_out (s_writer s') = be_bytes 8 WAL_MAGIC_NUMBER ++ frames es ++ be_bytes 8 (crc64 (frames es)).
Proof.
  intros B. fold magic.
  assert (G: forall fs es, Forall built fs -> Forall built es ->
    write_entries (mkSeg (mkWriter (magic ++ frames fs) []) CNone (crc64 (frames fs))) es =
    (map (fun _ => Ok tt) es, mkSeg (mkWriter (magic ++ frames (fs ++ es)) []) CNone (crc64 (frames (fs ++ es))))).
  { clear. intros fs es. revert fs. induction es as [|e es IH]; intros fs Bf B; [cbn [write_entries map]; now rewrite app_nil_r|].
    apply Forall_cons_iff in B as [B1 B2]. cbn [write_entries map]. rewrite immediate_step by assumption.
    assert (E: (magic ++ frames fs) ++ get_bytes e = magic ++ frames (fs ++ [e])).
    { unfold frames. rewrite map_app, concat_app. cbn [map concat]. now rewrite app_nil_r, app_assoc. }
    rewrite E, IH; [|apply Forall_app; split; [assumption|repeat constructor; assumption]|assumption].
    rewrite <- app_assoc. reflexivity. }
  assert (S0: seg_new PImmediate good_writer = mkSeg (mkWriter (magic ++ frames []) []) CNone (crc64 (frames []))).
  { unfold frames. cbn [map concat]. rewrite app_nil_r. reflexivity. }
  rewrite S0, (G [] es (Forall_nil _) B). cbn [app]. split; [reflexivity|]. split; [reflexivity|].
  cbn [seg_close seg_write s_writer s_crc wr_write wr_plan wr_out rmap]. split; [reflexivity|]. now rewrite <- app_assoc.
Qed.

(** ** cached policies *)
Theorem count_based limit w e : fst (write_entry (seg_new (PNum limit) w) e) = Panic /\
  s_writer (snd (write_entry (seg_new (PNum limit) w) e)) = s_writer (seg_new PImmediate w).
Proof. unfold seg_new. destruct (wr_write w _) as [r w']. split; reflexivity. Qed.

Theorem time_based es : 
  let '(rs, s) := write_entries (seg_new PTime good_writer) es in
  rs = map (fun _ => Ok tt) es /\
  wr_out (s_writer s) = be_bytes 8 WAL_MAGIC_NUMBER /\
  wr_out (s_writer (snd (seg_flush s))) = be_bytes 8 WAL_MAGIC_NUMBER /\
  wr_out (s_writer (snd (seg_close s))) = be_bytes 8 WAL_MAGIC_NUMBER ++ be_bytes 8 (crc64 []).
Proof.
  assert (G: forall es c, write_entries (mkSeg (mkWriter magic []) (CTime c) 0) es =
     (map (fun _ => Ok tt) es, mkSeg (mkWriter magic []) (CTime (c ++ es)) 0)).
  { clear. induction es as [|e es IH]; intros c; [cbn [write_entries map]; now rewrite app_nil_r|].
    cbn [write_entries map]. unfold write_entry. cbn [s_cache s_writer s_crc]. rewrite IH, <- app_assoc. reflexivity. }
  change (seg_new PTime good_writer) with (mkSeg (mkWriter magic []) (CTime []) 0). rewrite G. cbn [app]. split; [reflexivity|]. split; [reflexivity|].
  split; reflexivity.
Qed.

Notation lens := total_len.
Lemma write_contents_good out cc k es : Forall is_byte k -> Forall built es ->
  write_contents (mkSeg (mkWriter out []) cc (crc64 k)) es = (Ok tt, mkSeg (mkWriter (out ++ contents es) []) cc (crc64 (k ++ contents es))).
Proof.
  intros Hk B. revert out k Hk. induction B as [|e es Be B IH]; intros out k Hk; cbn [write_contents].
  - unfold contents. cbn [map concat]. now rewrite !app_nil_r.
  - cbn [seg_write s_writer wr_write wr_plan wr_out s_crc s_cache]. destruct (built_facts e Be) as (_ & _ & He & _). rewrite write64 by assumption.
    rewrite IH by (apply Forall_app; split; assumption). unfold contents. cbn [map concat]. now rewrite !app_assoc.
Qed.
Lemma clone_id es : map entry_clone es = es.
Proof. induction es as [|[] es IH]; [reflexivity|]. cbn [map]. rewrite IH. reflexivity. Qed.
Lemma contents_app a b : contents (a ++ b) = contents a ++ contents b.
Proof. unfold contents. now rewrite map_app, concat_app. Qed.
Lemma contents_bytes es : Forall built es -> Forall is_byte (contents es).
Proof. induction 1 as [|e es B _ IH]; [constructor|]. unfold contents in *. cbn [map concat]. apply Forall_app. split; [now apply built_facts|assumption]. Qed.
Lemma lens_app a b : lens (a ++ b) = lens a + lens b.
Proof. induction a as [|x a IH]; [reflexivity|]. cbn [app total_len fold_right]. fold (lens (a ++ b)) (lens a). lia. Qed.

(* the state of a size-based segment that has written [done] and holds [held] *)
Definition sized limit (done held : list entry) : seg :=
  mkSeg (mkWriter (magic ++ contents done) []) (CSize limit (lens held) held) (crc64 (contents done)).
Lemma size_step limit done held e : Forall built done -> Forall built held -> built e ->
  write_entry (sized limit done held) e =
  (Ok tt, if limit <=? lens (held ++ [e]) then sized limit (done ++ held ++ [e]) [] else sized limit done (held ++ [e])).
Proof.
  intros Bd Bh Be. unfold write_entry, sized. cbn [s_cache s_writer s_crc]. rewrite lens_app. cbn [total_len fold_right]. rewrite Z.add_0_r.
  destruct (limit <=? _); [|reflexivity].
  unfold seg_flush. cbn [s_cache s_writer s_crc]. rewrite clone_id, write_contents_good; [|now apply contents_bytes|apply Forall_app; split; [assumption|repeat constructor; assumption]].
  cbn [snd]. rewrite (contents_app done (held ++ [e])), (app_assoc magic). reflexivity.
Qed.
Lemma sized_run limit es : forall done held, Forall built done -> Forall built held -> Forall built es ->
  exists done', done' ++ fold_left (hold limit) es held = done ++ held ++ es /\ Forall built done' /\ Forall built (fold_left (hold limit) es held) /\
    write_entries (sized limit done held) es = (map (fun _ => Ok tt) es, sized limit done' (fold_left (hold limit) es held)).
Proof.
  induction es as [|e es IH]; intros done held Bd Bh B.
  - exists done. rewrite app_nil_r. cbn [fold_left map write_entries]. auto.
  - apply Forall_cons_iff in B as [B1 B2]. cbn [write_entries map fold_left]. rewrite size_step by assumption.
    assert (Bn: Forall built (held ++ [e])) by (apply Forall_app; split; [assumption|repeat constructor; assumption]).
    unfold hold at 2 4 6. change (total_len (held ++ [e])) with (lens (held ++ [e])). destruct (limit <=? lens (held ++ [e])) eqn:E.
    + destruct (IH (done ++ held ++ [e]) []) as (d & E1 & E3 & E4 & E6); [apply Forall_app; split; assumption|constructor|assumption|].
      exists d. split; [rewrite E1; rewrite <- !app_assoc; reflexivity|]. do 2 (split; [assumption|]). rewrite E6. reflexivity.
    + destruct (IH done (held ++ [e])) as (d & E1 & E3 & E4 & E6); [assumption..|].
      exists d. split; [rewrite E1; rewrite <- !app_assoc; reflexivity|]. do 2 (split; [assumption|]). rewrite E6. reflexivity.
Qed.

Theorem size_based limit es : Forall built es ->
  exists done, es = done ++ held_back limit es /\
  let '(rs, s) := write_entries (seg_new (PSize limit) good_writer) es in
  rs = map (fun _ => Ok tt) es /\ wr_out (s_writer s) = be_bytes 8 WAL_MAGIC_NUMBER ++ contents done /\
  wr_out (s_writer (snd (seg_flush s))) = be_bytes 8 WAL_MAGIC_NUMBER ++ contents es /\
  wr_out (s_writer (snd (seg_close s))) = be_bytes 8 WAL_MAGIC_NUMBER ++ contents done ++ be_bytes 8 (crc64 (contents done)).
Proof.
  intros B. fold magic. destruct (sized_run limit es [] []) as (d & E1 & E3 & E4 & E6); [constructor|constructor|assumption|].
  exists d. cbn [app] in E1. fold (held_back limit es) in *. split; [congruence|].
  assert (S0: seg_new (PSize limit) good_writer = sized limit [] []).
  { unfold sized, contents. cbn [map concat total_len fold_right]. rewrite app_nil_r. reflexivity. }
  rewrite S0, E6. split; [reflexivity|]. split; [reflexivity|]. split.
  - unfold seg_flush, sized. cbn [s_cache s_writer s_crc]. rewrite clone_id, write_contents_good; [|now apply contents_bytes|assumption].
    cbn [snd s_writer wr_out]. rewrite <- E1 at 2. rewrite contents_app. now rewrite app_assoc.
  - unfold seg_close, sized. cbn [seg_write s_writer s_crc wr_write wr_plan wr_out snd]. now rewrite <- app_assoc.
Qed.

(* a count-based segment that was flushed, has written [done] and holds [held] *)
Definition counted (limit : nat) (done held : list entry) : seg :=
  mkSeg (mkWriter (magic ++ contents done) []) (CNum limit (length held) (held ++ repeat entry_default (limit - length held))) (crc64 (contents done)).
Lemma defaults_built n : Forall built (repeat entry_default n).
Proof. apply Forall_forall. intros x Hx. apply repeat_spec in Hx as ->. exists 0, []. split; [lia|]. split; [constructor|reflexivity]. Qed.
Lemma defaults_contents n : contents (repeat entry_default n) = [].
Proof. induction n as [|n IH]; [reflexivity|exact IH]. Qed.
Lemma counted_flush limit done held : Forall built done -> Forall built held ->
  seg_flush (counted limit done held) = (Ok tt, counted limit (done ++ held) []).
Proof.
  intros Bd Bh. unfold seg_flush, counted. cbn [s_cache s_writer s_crc]. rewrite clone_id, write_contents_good;
    [|now apply contents_bytes|apply Forall_app; split; [assumption|apply defaults_built]].
  rewrite !contents_app, defaults_contents, app_nil_r. cbn [length app]. rewrite Nat.sub_0_r, app_assoc. reflexivity.
Qed.
Lemma count_step limit done held e : (length held < limit)%nat -> Forall built done -> Forall built held -> built e ->
  write_entry (counted limit done held) e =
  (Ok tt, if (S (length held) =? limit)%nat then counted limit (done ++ held ++ [e]) [] else counted limit done (held ++ [e])).
Proof.
  intros L Bd Bh Be. unfold write_entry, counted at 1. cbn [s_cache s_writer s_crc]. rewrite app_length, repeat_length.
  destruct (Nat.ltb_spec (length held) (length held + (limit - length held))) as [_|N]; [|lia].
  assert (E: firstn (length held) (held ++ repeat entry_default (limit - length held)) ++
     e :: skipn (S (length held)) (held ++ repeat entry_default (limit - length held)) = (held ++ [e]) ++ repeat entry_default (limit - length (held ++ [e]))).
  { rewrite firstn_app, Nat.sub_diag, firstn_all, app_nil_r, <- app_assoc. cbn [app]. rewrite skipn_app, (skipn_all2 held) by lia.
    cbn [app]. do 2 f_equal. rewrite app_length. cbn [length]. replace (S (length held) - length held)%nat with 1%nat by lia.
    destruct (limit - length held)%nat as [|k] eqn:K; [lia|]. cbn [repeat skipn]. f_equal. lia. }
  rewrite E. assert (C: mkSeg (mkWriter (magic ++ contents done) []) (CNum limit (S (length held)) ((held ++ [e]) ++ repeat entry_default (limit - length (held ++ [e])))) (crc64 (contents done))
     = counted limit done (held ++ [e])).
  { unfold counted. rewrite app_length. cbn [length]. now rewrite Nat.add_1_r. }
  cbn [counted s_writer s_crc]. rewrite C. destruct (_ =? limit)%nat; [|reflexivity]. rewrite counted_flush; [reflexivity|assumption|].
  apply Forall_app. split; [assumption|repeat constructor; assumption].
Qed.
Lemma counted_run limit es : forall done held, (length held < limit)%nat -> Forall built done -> Forall built held -> Forall built es ->
  exists done' held', done' ++ held' = done ++ held ++ es /\ length held' = ((length held + length es) mod limit)%nat /\ Forall built done' /\ Forall built held' /\
    write_entries (counted limit done held) es = (map (fun _ => Ok tt) es, counted limit done' held').
Proof.
  induction es as [|e es IH]; intros done held L Bd Bh B.
  - exists done, held. rewrite app_nil_r. cbn [length]. rewrite Nat.add_0_r, Nat.mod_small by lia. cbn [map write_entries]. auto.
  - apply Forall_cons_iff in B as [B1 B2]. cbn [write_entries map]. rewrite count_step by assumption.
    assert (Bn: Forall built (held ++ [e])) by (apply Forall_app; split; [assumption|repeat constructor; assumption]).
    destruct (Nat.eqb_spec (S (length held)) limit) as [E|E].
    + destruct (IH (done ++ held ++ [e]) []) as (d & h & E1 & E2 & E3 & E4 & E6); [cbn [length]; lia|apply Forall_app; split; assumption|constructor|assumption|].
      exists d, h. split; [rewrite E1; rewrite <- !app_assoc; reflexivity|]. split; [|split; [assumption|split; [assumption|rewrite E6; reflexivity]]].
      rewrite E2. cbn [length]. replace (length held + S (length es))%nat with (0 + length es + 1 * limit)%nat by lia. now rewrite Nat.mod_add by lia.
    + destruct (IH done (held ++ [e])) as (d & h & E1 & E2 & E3 & E4 & E6); [rewrite app_length; cbn [length]; lia|assumption..|].
      exists d, h. split; [rewrite E1; rewrite <- !app_assoc; reflexivity|]. split; [|split; [assumption|split; [assumption|rewrite E6; reflexivity]]].
      rewrite E2, app_length. cbn [length]. f_equal. lia.
Qed.
Theorem count_flushed limit es : (0 < limit)%nat -> Forall built es ->
  let done := firstn (length es / limit * limit) es in
  let '(r0, s0) := seg_flush (seg_new (PNum limit) good_writer) in
  let '(rs, s) := write_entries s0 es in
  r0 = Ok tt /\ rs = map (fun _ => Ok tt) es /\ wr_out (s_writer s) = be_bytes 8 WAL_MAGIC_NUMBER ++ contents done /\
  wr_out (s_writer (snd (seg_flush s))) = be_bytes 8 WAL_MAGIC_NUMBER ++ contents es /\
  wr_out (s_writer (snd (seg_close s))) = be_bytes 8 WAL_MAGIC_NUMBER ++ contents done ++ be_bytes 8 (crc64 (contents done)).
Proof.
  intros L B. cbv zeta. fold magic. assert (S0: seg_flush (seg_new (PNum limit) good_writer) = (Ok tt, counted limit [] [])).
  { unfold counted, contents. cbn [map concat length app]. rewrite app_nil_r, Nat.sub_0_r. reflexivity. }
  rewrite S0. destruct (counted_run limit es [] []) as (d & h & E1 & E2 & E3 & E4 & E6); [assumption|constructor|constructor|assumption|].
  cbn [app length Nat.add] in E1, E2. rewrite E6. assert (D: firstn (length es / limit * limit) es = d).
  { assert (Ld: length d = (length es / limit * limit)%nat).
    { pose proof (f_equal (@length entry) E1) as El. rewrite app_length in El. pose proof (Nat.div_mod (length es) limit ltac:(lia)). lia. }
    rewrite <- Ld, <- E1, firstn_app, Nat.sub_diag, firstn_all. apply app_nil_r. }
  rewrite D. split; [reflexivity|]. split; [reflexivity|]. split; [reflexivity|]. rewrite counted_flush by assumption. cbn [snd]. split.
  - rewrite <- E1. reflexivity.
  - unfold seg_close, counted. cbn [seg_write s_writer s_crc wr_write wr_plan wr_out snd]. now rewrite <- app_assoc.
Qed.

Lemma frames_longer es : (length (contents es) + 15 * length es)%nat = length (frames es).
Proof.
  induction es as [|e es IH]; [reflexivity|]. rewrite frames_cons, app_length, frame_len'. unfold contents in *. cbn [map concat length].
  rewrite app_length. lia.
Qed.

(** ** short writes *)
Theorem short_write e n : built e -> (n < length (get_bytes e))%nat ->
  let '(r, s) := write_entry (seg_new PImmediate (mkWriter [] [Takes 8; Takes n])) e in
  r = Ok tt /\ wr_out (s_writer s) = be_bytes 8 WAL_MAGIC_NUMBER ++ firstn n (get_bytes e).
Proof. intros _ _. unfold seg_new, write_entry. cbn [wr_write wr_plan s_cache seg_write s_writer wr_out]. split; reflexivity. Qed.

(** ** corruption *)
Lemma parse_raw q t c k rest : 0 <= q < 2 ^ 64 -> 0 <= t < 256 -> Z.of_nat (length c) < 65536 -> 0 <= k < 2 ^ 32 ->
  parse_entry (get_bytes (mkEntry q t c k) ++ rest) = Some (mkParsed q t c k, rest).
Proof.
  intros Hq Ht Hc Hk. unfold get_bytes. cbn [e_seq e_type e_content e_crc]. rewrite <- !app_assoc. unfold parse_entry.
  rewrite take_app by apply length_be_bytes. rewrite take_app by reflexivity. rewrite take_app by apply length_be_bytes.
  rewrite (from_be_be_bytes 2). unfold wrapu. change (2 ^ (8 * Z.of_nat 2)) with 65536. change (2 ^ 16) with 65536. rewrite Z.mod_mod, Z.mod_small by lia.
  rewrite Nat2Z.id. rewrite take_app by reflexivity. rewrite take_app by apply length_be_bytes. rewrite !from_be_be_bytes.
  rewrite (Z.mod_small q), (Z.mod_small k) by assumption. unfold from_be. cbn [fold_left]. reflexivity.
Qed.
Lemma app_split (a b c d : bytes) : a ++ b = c ++ d -> (length a <= length c)%nat -> exists m, c = a ++ m /\ b = m ++ d.
Proof.
  revert c. induction a as [|x a IH]; intros c E L; [exists c; auto|]. destruct c as [|y c]; [cbn in L; lia|].
  cbn [app] in E. assert (x = y) as -> by congruence. cbn [length] in L. destruct (IH c ltac:(congruence) ltac:(lia)) as (m & -> & ->). exists m. auto.
Qed.
Theorem corruption e hd m m' tl rest : built e -> fits e -> get_bytes e = hd ++ m ++ tl ->
  (11 <= length hd)%nat -> (length hd + length m <= 11 + length (e_content e))%nat ->
  Forall is_byte m' -> length m' = length m -> (length m <= 4)%nat -> m' <> m ->
  read_log (hd ++ m' ++ tl ++ rest) = [].
Proof.
  intros B F E L1 L2 Fm Lm L4 N. destruct (built_facts e B) as (H1 & H2 & H3 & H4).
  assert (E0: get_bytes e = (be_bytes 8 (e_seq e) ++ [e_type e] ++ be_bytes 2 (wrapu 16 (Z.of_nat (length (e_content e))))) ++ e_content e ++ be_bytes 4 (e_crc e)).
  { unfold get_bytes. now rewrite <- !app_assoc. }
  rewrite E in E0. symmetry in E0. set (hdr := be_bytes 8 (e_seq e) ++ _) in E0.
  assert (Lh: length hdr = 11%nat) by (unfold hdr; rewrite !app_length, !length_be_bytes; reflexivity).
  destruct (app_split _ _ _ _ E0 ltac:(lia)) as (pre & -> & Ec). rewrite app_assoc in Ec. symmetry in Ec. rewrite app_length in L1, L2.
  destruct (app_split (pre ++ m) tl (e_content e) (be_bytes 4 (e_crc e))) as (post & EC & ->); [now rewrite <- app_assoc in *; rewrite Ec || (rewrite <- Ec; reflexivity)|rewrite app_length; lia|].
  rewrite <- app_assoc in EC.
  assert (EB: (hdr ++ pre) ++ m' ++ (post ++ be_bytes 4 (e_crc e)) ++ rest = get_bytes (mkEntry (e_seq e) (e_type e) (pre ++ m' ++ post) (e_crc e)) ++ rest).
  { unfold get_bytes, hdr. cbn [e_seq e_type e_content e_crc]. assert (length (pre ++ m' ++ post) = length (e_content e)) as -> by (rewrite EC, !app_length, Lm; reflexivity).
    rewrite <- !app_assoc. reflexivity. }
  rewrite EB. unfold read_log. set (bs := _ ++ rest). destruct (length bs) as [|f] eqn:LB; [reflexivity|]. cbn [parse_entries]. unfold bs.
  rewrite parse_raw; [| |rewrite H2; lia| |].
  - cbn [p_crc p_content]. rewrite H4, EC. destruct (Z.eqb_spec (crc32 (pre ++ m ++ post)) (crc32 (pre ++ m' ++ post))) as [Q|Q]; [|reflexivity].
    exfalso. rewrite EC in H3. apply Forall_app in H3 as [_ H3]. apply Forall_app in H3 as [H3 _].
    apply (burst32 pre m m' post H3 Fm (eq_sym Lm) L4); [congruence|exact Q].
  - exact H1.
  - rewrite !app_length, Lm. unfold fits in F. rewrite EC, !app_length in F. exact F.
  - rewrite H4. apply crc32_range.
Qed.
