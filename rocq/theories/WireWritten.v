(* Proofs about what is written: bytes. *)
From Coq Require Import ZifyBool ZifyNat.
From Verif Require Import Rust Proto ProtoSpec ProtoProofs ProtoRound Stream StreamSpec StreamProofs.

Lemma tag_b n wt : 0 <= n -> 0 <= wt -> Forall is_byte (tag n wt).
Proof. intros H1 H2. apply varint_bytes. lia. Qed.
Lemma le_b n : forall z, Forall is_byte (le_bytes n z).
Proof. induction n as [|n IH]; intros z; cbn [le_bytes]; constructor; [unfold is_byte; pose proof (Z.mod_pos_bound z 256); lia|apply IH]. Qed.
Lemma opt_b c b : Forall is_byte b -> Forall is_byte (opt c b).
Proof. destruct c; [auto|constructor]. Qed.
Lemma int64_b n z : 0 <= n -> Forall is_byte (w_int64 n z).
Proof. intros H. apply Forall_app. split; [apply tag_b; [exact H|unfold WVarint; lia]|]. apply varint_bytes. unfold wrapu. pose proof (Z.mod_pos_bound z (2 ^ 64)). lia. Qed.
Lemma enum_b n z : 0 <= n -> Forall is_byte (w_enum n z).
Proof. exact (int64_b n z). Qed.
Lemma double_b n z : 0 <= n -> Forall is_byte (w_double n z).
Proof. intros H. apply Forall_app. split; [apply tag_b; [exact H|unfold WFixed64; lia]|apply le_b]. Qed.
Lemma message_b n size body : 0 <= n -> 0 <= size -> Forall is_byte body -> Forall is_byte (w_message n size body).
Proof. intros H H1 H2. apply Forall_app. split; [apply tag_b; [exact H|unfold WLen; lia]|]. apply Forall_app. split; [now apply varint_bytes|exact H2]. Qed.
Lemma string_b n s : 0 <= n -> Forall is_byte s -> Forall is_byte (w_string n s).
Proof. intros H H2. apply (message_b n (Z.of_nat (length s)) s); [exact H|lia|exact H2]. Qed.
Lemma unknowns_b k u : 0 <= k -> unk_ok k u -> Forall is_byte (write_unknowns u).
Proof.
  intros Hk H. unfold write_unknowns. induction H as [|[n v] u [H1 H2] H IH]; [constructor|]. cbn [map concat]. apply Forall_app. split; [|exact IH].
  cbn [fst snd] in *. destruct v as [z|z|z|b]; cbn [write_unknown fst snd uval_ok] in *.
  all: unfold write_unknown; cbn [fst snd]; apply Forall_app; (split; [apply tag_b; [lia|unfold WVarint, WFixed64, WFixed32, WLen; lia]|]).
  all: try apply le_b; try (apply varint_bytes; lia).
  apply Forall_app. split; [apply varint_bytes; lia|exact H2].
Qed.
Lemma repeated_b {A} (ok : A -> Prop) n (write : A -> bytes) (size : A -> Z) l : 0 <= n -> (forall x, 0 <= size x) -> (forall x, ok x -> Forall is_byte (write x)) ->
  Forall ok l -> Forall is_byte (concat (map (fun x => w_message n (size x) (write x)) l)).
Proof. intros Hn Hs Hw H. induction H as [|x l H1 H2 IH]; [constructor|]. cbn [map concat]. apply Forall_app. split; [apply message_b; auto|exact IH]. Qed.

Ltac pieces := repeat lazymatch goal with
  | |- Forall is_byte (_ ++ _) => apply Forall_app; split
  | |- Forall is_byte (opt _ _) => apply opt_b
  | |- Forall is_byte (w_int64 _ _) => apply int64_b; lia
  | |- Forall is_byte (w_enum _ _) => apply enum_b; lia
  | |- Forall is_byte (w_double _ _) => apply double_b; lia
  | |- Forall is_byte (w_string _ _) => apply string_b; [lia|try assumption]
  | |- Forall is_byte (write_unknowns _) => eapply unknowns_b; [|eassumption]; lia
  end.
Lemma sample_b m : sample_ok m -> Forall is_byte (sample_write m).
Proof. intros (H1 & H2 & H3). unfold sample_write. pieces. Qed.
Lemma plabel_b m : plabel_ok m -> Forall is_byte (plabel_write m).
Proof. intros ([H1 _] & [H2 _] & H3). unfold plabel_write. pieces. Qed.
Lemma pseries_b m : pseries_ok m -> Forall is_byte (pseries_write m).
Proof.
  intros (H1 & H2 & H3). unfold pseries_write. pieces.
  - apply (repeated_b plabel_ok 1 plabel_write plabel_size); [lia|apply plabel_size_nonneg|exact plabel_b|assumption].
  - apply (repeated_b sample_ok 2 sample_write sample_size); [lia|apply sample_size_nonneg|exact sample_b|assumption].
Qed.
Lemma matcher_b m : matcher_ok m -> Forall is_byte (matcher_write m).
Proof. intros ([H1 _] & [H2 _] & H3). unfold matcher_write. pieces. Qed.
Lemma hints_b m : hints_ok m -> Forall is_byte (hints_write m).
Proof. intros (H1 & [H2 _] & H3 & H4 & H5). unfold hints_write. pieces. Qed.
Lemma pquery_b m : pquery_ok m -> Forall is_byte (pquery_write m).
Proof.
  intros (H1 & H2 & H3 & H4 & H5). unfold pquery_write. pieces.
  - apply (repeated_b matcher_ok 3 matcher_write matcher_size); [lia|apply matcher_size_nonneg|exact matcher_b|assumption].
  - destruct (pq_hints m) as [h|]; [|constructor]. apply message_b; [lia|apply hints_size_nonneg|now apply hints_b].
Qed.
Lemma write_request_b m : write_request_ok m -> Forall is_byte (write_request_write m).
Proof. intros (H1 & H2). unfold write_request_write. pieces. apply (repeated_b pseries_ok 1 pseries_write pseries_size); [lia|apply pseries_size_nonneg|exact pseries_b|assumption]. Qed.
Lemma read_request_b m : read_request_ok m -> Forall is_byte (read_request_write m).
Proof.
  intros (H1 & H2). unfold read_request_write. pieces.
  - apply (repeated_b pquery_ok 1 pquery_write pquery_size); [lia|apply pquery_size_nonneg|exact pquery_b|assumption].
  - induction (rq_types m) as [|t l IH]; [constructor|]. cbn [map concat]. pieces. exact IH.
Qed.
Lemma query_result_b m : query_result_ok m -> Forall is_byte (query_result_write m).
Proof. intros (H1 & H2). unfold query_result_write. pieces. apply (repeated_b pseries_ok 1 pseries_write pseries_size); [lia|apply pseries_size_nonneg|exact pseries_b|assumption]. Qed.
Lemma read_response_b m : read_response_ok m -> Forall is_byte (read_response_write m).
Proof. intros (H1 & H2). unfold read_response_write. pieces. apply (repeated_b query_result_ok 1 query_result_write query_result_size); [lia|apply query_result_size_nonneg|exact query_result_b|assumption]. Qed.
Lemma pchunk_b m : pchunk_ok m -> Forall is_byte (pchunk_write m).
Proof. intros (H1 & H2 & H3 & H4). unfold pchunk_write. pieces. Qed.
Lemma cseries_b m : cseries_ok m -> Forall is_byte (cseries_write m).
Proof.
  intros (H1 & H2 & H3). unfold cseries_write. pieces.
  - apply (repeated_b plabel_ok 1 plabel_write plabel_size); [lia|apply plabel_size_nonneg|exact plabel_b|assumption].
  - apply (repeated_b pchunk_ok 2 pchunk_write pchunk_size); [lia|apply pchunk_size_nonneg|exact pchunk_b|assumption].
Qed.
Lemma cresponse_b m : cresponse_ok m -> Forall is_byte (cresponse_write m).
Proof. intros (H1 & H2 & H3). unfold cresponse_write. pieces. apply (repeated_b cseries_ok 1 cseries_write cseries_size); [lia|apply cseries_size_nonneg|exact cseries_b|assumption]. Qed.
