(* Property C74: a build with overflow checks and one without. *)
From Verif Require Import Rust Bstream BitSpec Gorilla GorillaSpec Compactor CompactorSpec BuildSpec BuildProofs.

(** C74 *)
(* whatever is written to a bit stream *)
Theorem C74_bit_streams : forall s os, agrees (bops_run true s os) (bops_run false s os).
Proof. exact builds_bits. Qed.
Print Assumptions C74_bit_streams.
(* whatever points are fed to a compactor, the bytes being taken at any time *)
Theorem C74_compaction : forall k os, agrees (cops_run true k os) (cops_run false k os).
Proof. exact builds_compact. Qed.
Print Assumptions C74_compaction.
Theorem C74_compaction_vec : forall k ps, agrees (compactor_compact_vec true k ps) (compactor_compact_vec false k ps).
Proof. exact builds_vec. Qed.
Print Assumptions C74_compaction_vec.
(* whatever bytes are decompressed *)
Theorem C74_decompaction : forall c data,
  decompress true c data = Some Panic \/ decompress true c data = decompress false c data.
Proof. exact builds_decompress. Qed.
Print Assumptions C74_decompaction.
(* a series that survives in the build with overflow checks can be exchanged: the builds write
   the same bytes, and each reads them back *)
Theorem C74_exchange : forall ps, Forall tp_ok ps -> admissible true ps = true ->
  exists b, forall w, exists k, compactor_compact_vec w (compactor_new CGorilla) ps = Ok (b, k) /\
    forall r, decompress r CGorilla b = Some (Ok ps).
Proof. exact builds_exchange. Qed.
Print Assumptions C74_exchange.
(* one that survives only in the build without cannot: that build reads back what it wrote, the
   other panics both when it writes and when it reads *)
Theorem C74_exchange_refuted : exists ps b k, Forall tp_ok ps /\
  compactor_compact_vec false (compactor_new CGorilla) ps = Ok (b, k) /\
  decompress false CGorilla b = Some (Ok ps) /\
  compactor_compact_vec true (compactor_new CGorilla) ps = Panic /\
  decompress true CGorilla b = Some Panic.
Proof.
  exists [mkTp 10 5; mkTp 9 5; mkTp 8 5; mkTp 7 5]. do 2 eexists.
  split; [repeat constructor; cbn; lia|].
  split; [vm_compute; reflexivity|]. repeat split; vm_compute; reflexivity.
Qed.
Print Assumptions C74_exchange_refuted.
Example C74_case : let ps := [mkTp 10 5; mkTp 12 5; mkTp 500 77; mkTp 501 3] in
  Forall tp_ok ps /\ admissible true ps = true /\
  (exists bs, cops_run true (compactor_new CGorilla) [Feed (mkTp 10 5); Take; Feed (mkTp 12 6); Take] = Ok bs /\ length bs = 2%nat) /\
  cops_run true (compactor_new CGorilla) [Feed (mkTp 10 5); Feed (mkTp 9 6)] = Panic /\
  cops_run false (compactor_new CGorilla) [Feed (mkTp 10 5); Feed (mkTp 9 6)] = Ok [].
Proof.
  split; [repeat constructor; cbn; lia|]. split; [vm_compute; reflexivity|].
  split; [eexists; split; vm_compute; reflexivity|]. split; vm_compute; reflexivity.
Qed.
