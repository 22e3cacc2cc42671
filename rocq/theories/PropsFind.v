(* Properties C77 (looking up a file in a directory) and C78 (comparing chunks). *)
From Coq Require Import ZifyBool ZifyNat String.
From Verif Require Import WireSpec WireMsgs PropsWire.
From Verif Require Import Rust StringProofs Storage Indexer Chunk Proto Db DbSpec Find FindSpec FindProofs PropsDb.

(** C77: the outcome of the lookup of a file name, which is text *)
Theorem C77_lookup : forall {F} (l : list entry) (open : bytes -> option F) filename before,
  Forall (fun x => match x with Some n => Forall is_byte n | None => True end) l -> unicode filename -> up_to l filename before ->
  let r := get_file_from_dir (Some l) open filename in
  (r = Panic <-> ~ all_text before) /\
  (forall fl, r = Ok (Some fl) <-> all_text before /\ In (Some filename) l /\ open filename = Some fl) /\
  (r = Ok None <-> all_text l /\ ~ In (Some filename) l) /\
  (forall e, r = Err e <-> e = IoError /\ all_text before /\ In (Some filename) l /\ open filename = None) /\
  get_file_from_dir None open filename = Err IoError.
Proof. exact @lookup. Qed.
Print Assumptions C77_lookup.
(* an unreadable entry, the file, and a name that is not text, in two orders *)
Example C77_case : let l := [Some (s2b "0-100"); None; Some (s2b "metadata.json"); Some [255]] in
  let l' := [Some (s2b "0-100"); Some [255]; Some (s2b "metadata.json")] in
  let open := fun n => if bytes_eqb n (s2b "metadata.json") then Some 7 else None in
  up_to l (s2b "metadata.json") [Some (s2b "0-100"); None] /\ up_to l' (s2b "metadata.json") [Some (s2b "0-100"); Some [255]] /\
  up_to l (s2b "x") l /\ unicode (s2b "metadata.json") /\
  get_file_from_dir (Some l) open (s2b "metadata.json") = Ok (Some 7) /\ get_file_from_dir (Some l') open (s2b "metadata.json") = Panic /\
  get_file_from_dir (Some [Some (s2b "a")]) open (s2b "x") = Ok None /\ get_file_from_dir (Some l) open (s2b "0-100") = Err IoError.
Proof.
  cbv zeta. split; [left; eexists; split; [reflexivity|intros [H|[H|[]]]; discriminate H]|].
  split; [left; eexists; split; [reflexivity|intros [H|[H|[]]]; discriminate H]|].
  split; [right; split; [reflexivity|]; intros H; cbn [In] in H; repeat (destruct H as [H|H]; [discriminate H|]); exact H|].
  split; [apply C65_text; [repeat constructor; cbv; discriminate|reflexivity]|]. repeat split; reflexivity.
Qed.

(** C78: == of chunks is an equivalence, cmp a total order of the start times *)
Theorem C78_order : forall a b c : chunk,
  (chunk_eqb a b = true <-> c_start a = c_start b /\ c_end a = c_end b) /\
  (chunk_cmp a b = Lt <-> c_start a < c_start b) /\ (chunk_cmp a b = Eq <-> c_start a = c_start b) /\ (chunk_cmp a b = Gt <-> c_start a > c_start b) /\
  chunk_cmp b a = CompOpp (chunk_cmp a b) /\
  (chunk_cmp a b <> Gt -> chunk_cmp b c <> Gt -> chunk_cmp a c <> Gt) /\
  (chunk_eqb a b = true -> chunk_cmp a b = Eq).
Proof.
  intros a b c. unfold chunk_eqb, chunk_cmp. split; [lia|]. split; [apply Z.compare_lt_iff|]. split; [apply Z.compare_eq_iff|].
  split; [rewrite Z.compare_gt_iff; lia|]. split; [apply Z.compare_antisym|]. split; [|rewrite Z.compare_eq_iff; lia].
  rewrite !Z.compare_ngt_iff. lia.
Qed.
Print Assumptions C78_order.
(* chunks with windows of one size: equal exactly if neither is less *)
Theorem C78_one_size : forall cf s s', let a := the_chunk cf s in let b := the_chunk cf s' in chunk_eqb a b = true <-> chunk_cmp a b = Eq.
Proof. intros cf s s' a b. unfold chunk_eqb, chunk_cmp, a, b, the_chunk. cbn [c_start c_end]. rewrite Z.compare_eq_iff. split; [|intros ->]; lia. Qed.
Print Assumptions C78_one_size.
(* in general not, against the contract of Ord *)
Theorem C78_consistent_refuted : exists a b : chunk, chunk_cmp a b = Eq /\ chunk_eqb a b = false.
Proof. exists (mkChunk SledStorage SledIndexer 1000 1100), (mkChunk SledStorage SledIndexer 1000 1200). split; reflexivity. Qed.
Print Assumptions C78_consistent_refuted.
Example C78_case : let a := the_chunk (ex_config Sled Sled) 1000 in let b := the_chunk (ex_config Sled Sled) 1101 in
  chunk_eqb a a = true /\ chunk_eqb a b = false /\ chunk_cmp a b = Lt /\ chunk_cmp b a = Gt.
Proof. repeat split; reflexivity. Qed.
