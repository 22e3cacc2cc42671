(* Properties C41-C44: the write-ahead log. *)
From Verif Require Import Rust Wal WalSpec CrcProofs WalProofs EdgeProofs.

(* entries used in the examples: pushed in two pieces, cloned, empty *)
Definition ex_entry : entry := build 1 [Push [1; 2]; Clone; Push [3; 4]].
Definition ex_entries : list entry := [ex_entry; build 2 []; build (2 ^ 64 - 1) [Push [255; 0]; Clone]].
Lemma ex_built : Forall built ex_entries.
Proof.
  unfold ex_entries, ex_entry.
  repeat (apply Forall_cons; [eexists _, _; split; [|split; [|reflexivity]]; [lia|repeat constructor; unfold is_byte; lia]|]). apply Forall_nil.
Qed.
Lemma ex_fits : Forall fits ex_entries.
Proof. repeat constructor; unfold fits; vm_compute; reflexivity. Qed.

(** C41 *)
Theorem C41_entry_round_trip : forall e rest, built e -> fits e ->
  parse_entry (get_bytes e ++ rest) = Some (mkParsed (e_seq e) (e_type e) (e_content e) (crc32 (e_content e)), rest).
Proof. exact parse_fits. Qed.
Print Assumptions C41_entry_round_trip.
(* any content: the length is taken modulo 65536, so from 65536 bytes on the reader cuts the content
   and takes the following content bytes for the checksum and the next entry *)
Theorem C41_entry_any_length : forall e rest, built e ->
  let l := Z.to_nat (Z.of_nat (length (e_content e)) mod 65536) in
  parse_entry (get_bytes e ++ rest) =
  let tail := skipn l (e_content e) ++ be_bytes 4 (crc32 (e_content e)) ++ rest in
  Some (mkParsed (e_seq e) 0 (firstn l (e_content e)) (from_be (firstn 4 tail)), skipn 4 tail).
Proof. exact parse_any. Qed.
Print Assumptions C41_entry_any_length.
Theorem C41_long_entry_refuted : forall e rest p r, built e -> ~ fits e ->
  parse_entry (get_bytes e ++ rest) = Some (p, r) -> p_content p <> e_content e.
Proof.
  intros e rest p r B F E Q. rewrite (parse_any e rest B) in E.
  assert (P: p_content p = firstn (Z.to_nat (Z.of_nat (length (e_content e)) mod 65536)) (e_content e)) by (apply (f_equal (fun x => match x with Some (y, _) => p_content y | None => [] end)) in E; symmetry; exact E).
  rewrite Q in P. apply (f_equal (@length Z)) in P. rewrite firstn_length in P. unfold fits in F.
  pose proof (Z.mod_pos_bound (Z.of_nat (length (e_content e))) 65536 ltac:(lia)). lia.
Qed.
Print Assumptions C41_long_entry_refuted.
(* the length an entry reports is two bytes less than what it writes *)
Theorem C41_reported_length : forall e, Z.of_nat (length (get_bytes e)) = entry_len e + 2.
Proof. exact frame_len. Qed.
Print Assumptions C41_reported_length.
Example C41_case : built ex_entry /\ fits ex_entry /\
  get_bytes ex_entry = [0; 0; 0; 0; 0; 0; 0; 1; 0; 0; 4; 1; 2; 3; 4; 182; 60; 251; 205] /\
  parse_entry (get_bytes ex_entry ++ [9; 9]) = Some (mkParsed 1 0 [1; 2; 3; 4] 0xB63CFBCD, [9; 9]).
Proof.
  pose proof ex_built as B. apply Forall_cons_iff in B as [B _]. pose proof ex_fits as F. apply Forall_cons_iff in F as [F _].
  split; [exact B|]. split; [exact F|]. split; vm_compute; reflexivity.
Qed.
(* an entry that is too long *)
Example C41_long_case : built (build 5 [Push (repeat 7 (Z.to_nat 65536))]) /\ ~ fits (build 5 [Push (repeat 7 (Z.to_nat 65536))]).
Proof.
  assert (F: Forall is_byte (pushed [Push (repeat 7 (Z.to_nat 65536))])).
  { unfold pushed. cbn [map concat]. rewrite app_nil_r, Forall_forall. intros x Hx. apply repeat_spec in Hx as ->. unfold is_byte. lia. }
  split; [eexists _, _; split; [|split; [exact F|reflexivity]]; lia|].
  unfold fits. destruct (build_facts 5 _ F) as (_ & _ & C & _). rewrite C. unfold pushed. cbn [map concat]. rewrite app_nil_r, repeat_length, Z2Nat.id by lia. lia.
Qed.

(** C42 *)
Theorem C42_pushed_in_pieces : forall seq ts, Forall is_byte (pushed ts) ->
  e_content (build seq ts) = pushed ts /\ e_crc (build seq ts) = crc32 (pushed ts).
Proof. intros seq ts F. destruct (build_facts seq ts F) as (_ & _ & A & B). auto. Qed.
Print Assumptions C42_pushed_in_pieces.
Theorem C42_pieces_do_not_matter : forall seq ts ts', Forall is_byte (pushed ts) -> pushed ts = pushed ts' ->
  build seq ts = build seq ts' /\ get_bytes (build seq ts) = get_bytes (build seq ts').
Proof. intros seq ts ts' F E. rewrite (push_same seq ts ts' F E). auto. Qed.
Print Assumptions C42_pieces_do_not_matter.
Theorem C42_burst_changes_checksum : forall pre m m' post,
  Forall is_byte m -> Forall is_byte m' -> length m = length m' -> (length m <= 4)%nat -> m <> m' ->
  crc32 (pre ++ m ++ post) <> crc32 (pre ++ m' ++ post).
Proof. exact burst32. Qed.
Print Assumptions C42_burst_changes_checksum.
(* so a reader does not accept an entry with up to four neighbouring content bytes changed *)
Theorem C42_corruption_detected : forall e hd m m' tl rest, built e -> fits e -> get_bytes e = hd ++ m ++ tl ->
  (11 <= length hd)%nat -> (length hd + length m <= 11 + length (e_content e))%nat ->
  Forall is_byte m' -> length m' = length m -> (length m <= 4)%nat -> m' <> m ->
  read_log (hd ++ m' ++ tl ++ rest) = [].
Proof. exact corruption. Qed.
Print Assumptions C42_corruption_detected.
Example C42_case : Forall is_byte (pushed [Push [49; 50; 51]; Clone; Push [52; 53; 54; 55; 56; 57]]) /\
  e_crc (build 7 [Push [49; 50; 51]; Clone; Push [52; 53; 54; 55; 56; 57]]) = 0xCBF43926 /\
  crc32 [49; 50; 51; 52; 53; 54; 55; 56; 57] = 0xCBF43926 /\
  get_bytes ex_entry = [0; 0; 0; 0; 0; 0; 0; 1; 0; 0; 4; 1] ++ [2; 3] ++ [4; 182; 60; 251; 205] /\
  read_log ([0; 0; 0; 0; 0; 0; 0; 1; 0; 0; 4; 1] ++ [2; 3] ++ [4; 182; 60; 251; 205] ++ [1]) = [mkParsed 1 0 [1; 2; 3; 4] 0xB63CFBCD] /\
  read_log ([0; 0; 0; 0; 0; 0; 0; 1; 0; 0; 4; 1] ++ [3; 2] ++ [4; 182; 60; 251; 205] ++ [1]) = [].
Proof. split; [repeat constructor; unfold is_byte; lia|]. repeat split; vm_compute; reflexivity. Qed.

(** C43 *)
Theorem C43_immediate : forall es, Forall built es ->
  let '(rs, s) := write_entries (seg_new PImmediate good_writer) es in
  rs = map (fun _ => Ok tt) es /\ wr_out (s_writer s) = be_bytes 8 WAL_MAGIC_NUMBER ++ frames es /\
  let '(r, s') := seg_close s in
  r = Ok tt /\ wr_out (s_writer s') = be_bytes 8 WAL_MAGIC_NUMBER ++ frames es ++ be_bytes 8 (crc64 (frames es)).
Proof. exact immediate. Qed.
Print Assumptions C43_immediate.
(* a reader of the layout gets the entries back, and from a log cut anywhere those that are whole *)
Theorem C43_log_read_back : forall es, Forall built es -> Forall fits es -> read_log (frames es) = map said es.
Proof. exact read_all. Qed.
Print Assumptions C43_log_read_back.
Theorem C43_cut_log_read_back : forall es n, Forall built es -> Forall fits es -> (n <= length (frames es))%nat ->
  exists k, (k <= length es)%nat /\ read_log (firstn n (frames es)) = map said (firstn k es) /\
    (length (frames (firstn k es)) <= n)%nat /\ (forall j, (k < j <= length es)%nat -> (n < length (frames (firstn j es)))%nat).
Proof. exact read_cut. Qed.
Print Assumptions C43_cut_log_read_back.
(* the checksum of a closed segment shows any change of up to eight neighbouring bytes *)
Theorem C43_segment_checksum : forall pre m m' post,
  Forall is_byte m -> Forall is_byte m' -> length m = length m' -> (length m <= 8)%nat -> m <> m' ->
  crc64 (pre ++ m ++ post) <> crc64 (pre ++ m' ++ post).
Proof. exact burst64. Qed.
Print Assumptions C43_segment_checksum.
(* with a writer that takes only part of a buffer the entry is acknowledged all the same *)
Theorem C43_short_write_refuted : forall e n, built e -> (n < length (get_bytes e))%nat ->
  let '(r, s) := write_entry (seg_new PImmediate (mkWriter [] [Takes 8; Takes n])) e in
  r = Ok tt /\ wr_out (s_writer s) = be_bytes 8 WAL_MAGIC_NUMBER ++ firstn n (get_bytes e).
Proof. exact short_write. Qed.
Print Assumptions C43_short_write_refuted.
Example C43_case : Forall built ex_entries /\ Forall fits ex_entries /\
  wr_out (s_writer (snd (write_entries (seg_new PImmediate good_writer) ex_entries))) =
  [87; 65; 76; 0; 0; 0; 0; 0] ++ get_bytes ex_entry ++ [0; 0; 0; 0; 0; 0; 0; 2; 0; 0; 0; 0; 0; 0; 0] ++
  [255; 255; 255; 255; 255; 255; 255; 255; 0; 0; 2; 255; 0] ++ be_bytes 4 (crc32 [255; 0]) /\
  read_log (firstn 40 (frames ex_entries)) = [mkParsed 1 0 [1; 2; 3; 4] 0xB63CFBCD; mkParsed 2 0 [] 0] /\
  crc64 [49; 50; 51; 52; 53; 54; 55; 56; 57] = 0x995DC9BBDF1939FA.
Proof. split; [exact ex_built|]. split; [exact ex_fits|]. repeat split; vm_compute; reflexivity. Qed.

(** C44 *)
(* count-based: the first entry panics, whatever the limit and the writer *)
Theorem C44_count_based_refuted : forall limit w e es,
  fst (write_entries (seg_new (PNum limit) w) (e :: es)) = [Panic] /\
  s_writer (snd (write_entries (seg_new (PNum limit) w) (e :: es))) = s_writer (seg_new PImmediate w).
Proof. exact count_based_all. Qed.
Print Assumptions C44_count_based_refuted.
(* unless it is flushed first; then the bare contents, in groups of the limit *)
Theorem C44_count_based_flushed : forall limit es, (0 < limit)%nat -> Forall built es ->
  let done := firstn (length es / limit * limit) es in
  let '(r0, s0) := seg_flush (seg_new (PNum limit) good_writer) in
  let '(rs, s) := write_entries s0 es in
  r0 = Ok tt /\ rs = map (fun _ => Ok tt) es /\ wr_out (s_writer s) = be_bytes 8 WAL_MAGIC_NUMBER ++ contents done /\
  wr_out (s_writer (snd (seg_flush s))) = be_bytes 8 WAL_MAGIC_NUMBER ++ contents es /\
  wr_out (s_writer (snd (seg_close s))) = be_bytes 8 WAL_MAGIC_NUMBER ++ contents done ++ be_bytes 8 (crc64 (contents done)).
Proof. exact count_flushed. Qed.
Print Assumptions C44_count_based_flushed.
(* time-based: every entry is acknowledged, nothing is ever written *)
Theorem C44_time_based_refuted : forall es,
  let '(rs, s) := write_entries (seg_new PTime good_writer) es in
  rs = map (fun _ => Ok tt) es /\
  wr_out (s_writer s) = be_bytes 8 WAL_MAGIC_NUMBER /\
  wr_out (s_writer (snd (seg_flush s))) = be_bytes 8 WAL_MAGIC_NUMBER /\
  wr_out (s_writer (snd (seg_close s))) = be_bytes 8 WAL_MAGIC_NUMBER ++ be_bytes 8 (crc64 []).
Proof. exact time_based. Qed.
Print Assumptions C44_time_based_refuted.
(* size-based: the bare contents of the entries not held back; a flush adds the others, a close
   does not *)
Theorem C44_size_based : forall limit es, Forall built es ->
  exists done, es = done ++ held_back limit es /\
  let '(rs, s) := write_entries (seg_new (PSize limit) good_writer) es in
  rs = map (fun _ => Ok tt) es /\ wr_out (s_writer s) = be_bytes 8 WAL_MAGIC_NUMBER ++ contents done /\
  wr_out (s_writer (snd (seg_flush s))) = be_bytes 8 WAL_MAGIC_NUMBER ++ contents es /\
  wr_out (s_writer (snd (seg_close s))) = be_bytes 8 WAL_MAGIC_NUMBER ++ contents done ++ be_bytes 8 (crc64 (contents done)).
Proof. exact size_based. Qed.
Print Assumptions C44_size_based.
(* so it never holds the framed entries, flushed or closed *)
Theorem C44_size_based_refuted : forall limit es, Forall built es -> es <> [] ->
  let s := snd (write_entries (seg_new (PSize limit) good_writer) es) in
  wr_out (s_writer (snd (seg_flush s))) <> be_bytes 8 WAL_MAGIC_NUMBER ++ frames es /\
  wr_out (s_writer (snd (seg_close s))) <> be_bytes 8 WAL_MAGIC_NUMBER ++ frames es ++ be_bytes 8 (crc64 (frames es)).
Proof.
  intros limit es B N. destruct (size_based limit es B) as (d & E & H). destruct (write_entries _ es) as [rs s]. cbv zeta. cbn [snd].
  destruct H as (_ & _ & F & C). rewrite F, C. pose proof (frames_longer es) as L.
  assert (Ld: (length (contents d) <= length (contents es))%nat) by (rewrite E, contents_app, app_length; lia).
  assert (Le: (0 < length es)%nat) by (destruct es; [congruence|cbn; lia]).
  split; intros Q; apply app_inv_head in Q; apply (f_equal (@length Z)) in Q; rewrite ?app_length, ?BitsProofs.length_be_bytes in Q; lia.
Qed.
Print Assumptions C44_size_based_refuted.
Example C44_case : ex_entries <> [] /\ Forall built ex_entries /\ (0 < length ex_entries / 2 * 2 < length ex_entries)%nat /\ held_back 30 ex_entries = [build (2 ^ 64 - 1) [Push [255; 0]; Clone]] /\
  wr_out (s_writer (snd (write_entries (seg_new (PSize 30) good_writer) ex_entries))) = [87; 65; 76; 0; 0; 0; 0; 0; 1; 2; 3; 4].
Proof. split; [discriminate|]. split; [exact ex_built|]. split; [cbn; lia|]. split; vm_compute; reflexivity. Qed.
