(* Properties C37, C38: the names of chunk directories. *)
From Coq Require Import String.
From Verif Require Import Rust Prog Storage Chunk Utils DirSpec DirProofs TiKvInit Db.
Local Notation length := List.length.

(** C37 *)
Theorem C37_window_round_trip : forall s e, u64 s -> u64 e ->
  decode_chunk_dir (encode_chunk_dir s e) = Ok (s, e).
Proof. exact decode_encode. Qed.
Print Assumptions C37_window_round_trip.
Theorem C37_names_differ : forall s e s' e', u64 s -> u64 e -> u64 s' -> u64 e' ->
  encode_chunk_dir s e = encode_chunk_dir s' e' -> s = s' /\ e = e'.
Proof. exact encode_inj. Qed.
Print Assumptions C37_names_differ.
(* exactly the hexadecimal numbers of at most 128 bits are accepted (with a plus sign or leading
   zeros too), every other text is an error *)
Theorem C37_accepted_names : forall text,
  (forall s e, decode_chunk_dir text = Ok (s, e) <-> u64 s /\ u64 e /\ hex_text text (s * 2 ^ 64 + e)) /\
  ((forall v, ~ hex_text text v) -> decode_chunk_dir text = Err ParseErr) /\
  decode_chunk_dir text <> Panic.
Proof. exact decode_exact. Qed.
Print Assumptions C37_accepted_names.
Example C37_case :
  u64 1585967190000 /\ u64 1585979190000 /\
  encode_chunk_dir 1585967190000 1585979190000 = s2b "1714302cff00000017143b9eaf0" /\
  decode_chunk_dir (s2b "1714302cff00000017143b9eaf0") = Ok (1585967190000, 1585979190000) /\
  decode_chunk_dir (s2b "metadata.json") = Err ParseErr /\ decode_chunk_dir (s2b "") = Err ParseErr /\
  hex_text (s2b "+00fF") 255 /\ decode_chunk_dir (s2b "+00fF") = Ok (0, 255).
Proof.
  unfold u64. split; [lia|]. split; [lia|]. do 4 (split; [vm_compute; reflexivity|]). split; [|vm_compute; reflexivity].
  exists (s2b "00fF"), [0; 0; 15; 15]. split; [now right|]. split; [discriminate|]. split; [|split; vm_compute; reflexivity].
  repeat constructor; unfold hex_digit; cbn; lia.
Qed.

(** C38 *)
Theorem C38_name_recovered : forall dir name, dir <> [] -> ascii dir -> plain_name name ->
  extract_name (join dir name) = Ok name.
Proof. exact extract_ascii. Qed.
Print Assumptions C38_name_recovered.
(* in general one character is lost for each byte the path has more than characters *)
Theorem C38_name_general : forall dir name, dir <> [] -> plain_name name ->
  extract_name (join dir name) = Ok (skipn (Z.to_nat (surplus dir)) name).
Proof. exact extract_exact. Qed.
Print Assumptions C38_name_general.
(* so below a directory whose path is not ASCII no chunk is opened with its window: its directory
   is ignored, or taken for a window that starts earlier *)
Theorem C38_lost_below_other_paths : forall cf s e f,
  u64 s -> u64 e -> 0 < s -> (exists c, In c (cf_base cf) /\ 128 <= c) ->
  match run fhandler (read_entry cf (encode_chunk_dir s e)) f with
  | Some (Ok (Some d), _) => c_start (dc_chunk d) < s
  | Some (Panic, _) | None => False
  | _ => True
  end.
Proof. exact lost_entry. Qed.
Print Assumptions C38_lost_below_other_paths.
(* "/tmp/data" and "/tmp/données" *)
Example C38_case :
  extract_name (join (s2b "/tmp/data") (s2b "1b6a7")) = Ok (s2b "1b6a7") /\
  extract_name (join (s2b "/tmp/data/") (s2b "1b6a7")) = Ok (s2b "1b6a7") /\
  extract_name (join (s2b "/tmp/donn" ++ [233] ++ s2b "es") (s2b "1b6a7")) = Ok (s2b "b6a7") /\
  surplus (s2b "/tmp/donn" ++ [233] ++ s2b "es") = 1.
Proof. vm_compute. repeat split; reflexivity. Qed.
