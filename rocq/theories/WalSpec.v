(* Specification vocabulary for the write-ahead log: checksums as a shift register over bits, the
   documented layout, and a reader for it.  The repository has no reader. *)
From Verif Require Import Rust Wal.

(** ** checksums *)
(* the bits of a byte, least significant first *)
Definition byte_bits (x : Z) : list bool := map (fun i => Z.testbit x (Z.of_nat i)) (seq 0 8).
(* the reflected shift register: compare the bit with the one leaving the register *)
Definition shift_bit (poly s : Z) (b : bool) : Z :=
  if xorb (Z.odd s) b then Z.lxor (s / 2) poly else s / 2.
(* start with ones, feed every bit, complement *)
Definition crc_spec (n poly : Z) (msg : bytes) : Z :=
  2 ^ n - 1 - fold_left (shift_bit poly) (concat (map byte_bits msg)) (2 ^ n - 1).
Definition crc32 (msg : bytes) : Z := crc_spec 32 0xEDB88320 msg.
Definition crc64 (msg : bytes) : Z := crc_spec 64 0xC96C5795D7870F42 msg.

(** ** entries *)
(* how an entry comes about: pushed to, or cloned, any number of times *)
Inductive estep := Push (c : bytes) | Clone.
Definition do_step (e : entry) (t : estep) : entry :=
  match t with Push c => entry_push e c | Clone => entry_clone e end.
Definition build (seq : Z) (ts : list estep) : entry := fold_left do_step ts (entry_new seq).
Definition pushed (ts : list estep) : bytes := concat (map (fun t => match t with Push c => c | Clone => [] end) ts).
Definition built (e : entry) : Prop :=
  exists seq ts, 0 <= seq < 2 ^ 64 /\ Forall is_byte (pushed ts) /\ e = build seq ts.
(* short enough for the length field *)
Definition fits (e : entry) : Prop := (Z.of_nat (length (e_content e)) < 65536)%Z.

(** ** reading the documented layout (src/wal/mod.rs:21-24) *)
Definition take (n : nat) (bs : bytes) : option (bytes * bytes) :=
  if (n <=? length bs)%nat then Some (firstn n bs, skipn n bs) else None.
Record parsed := mkParsed { p_seq : Z; p_type : Z; p_content : bytes; p_crc : Z }.
Definition parse_entry (bs : bytes) : option (parsed * bytes) :=
  match take 8 bs with
  | Some (q, bs) =>
      match take 1 bs with
      | Some (t, bs) =>
          match take 2 bs with
          | Some (l, bs) =>
              match take (Z.to_nat (from_be l)) bs with
              | Some (c, bs) =>
                  match take 4 bs with
                  | Some (k, bs) => Some (mkParsed (from_be q) (from_be t) c (from_be k), bs)
                  | None => None
                  end
              | None => None
              end
          | None => None
          end
      | None => None
      end
  | None => None
  end.
(* the entries at the start of a byte string, up to the first one that is cut short or has a wrong
   checksum *)
Fixpoint parse_entries (fuel : nat) (bs : bytes) : list parsed :=
  match fuel with
  | O => []
  | S f =>
      match parse_entry bs with
      | Some (p, rest) => if p_crc p =? crc32 (p_content p) then p :: parse_entries f rest else []
      | None => []
      end
  end.
Definition read_log (bs : bytes) : list parsed := parse_entries (length bs) bs.
Definition said (e : entry) : parsed := mkParsed (e_seq e) (e_type e) (e_content e) (crc32 (e_content e)).

(* the entries framed one after the other *)
Definition frames (es : list entry) : bytes := concat (map get_bytes es).
Definition contents (es : list entry) : bytes := concat (map e_content es).
(* a writer that has nothing yet and takes every buffer whole *)
Definition good_writer : writer := mkWriter [] [].

(* the entries a size-based policy holds back: it lets go of all it holds when their lengths reach
   the limit *)
Definition total_len (es : list entry) : Z := fold_right (fun e n => entry_len e + n) 0 es.
Definition hold (limit : Z) (held : list entry) (e : entry) : list entry :=
  if limit <=? total_len (held ++ [e]) then [] else held ++ [e].
Definition held_back (limit : Z) (es : list entry) : list entry := fold_left (hold limit) es [].
