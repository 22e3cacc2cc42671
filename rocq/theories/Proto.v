(* Model of src/proto/types.rs and src/proto/remote.rs: the messages of the Prometheus remote
   read and write protocol that the server uses, their sizes, writers and readers; and of the parts
   of the protobuf crate (2.8.0 in Cargo.lock, source not in the repository) these call.

   The messages for streamed answers are in Stream.v.  Left out: reflection and text output, the
   limit of 100 on the nesting of messages (they nest four deep here) and the stack used by nested
   groups, sizes beyond u32. *)
From Verif Require Import Rust.

(* ------------------------------------------------------------------ *)
(** * The wire format (protobuf crate) *)

(* CodedOutputStream::write_raw_varint64 / write_raw_varint32: at most n bytes, 7 bits each,
   low bits first *)
Fixpoint varint (n : nat) (z : Z) : bytes :=
  match n with
  | O => []
  | S n' => if z <? 128 then [z] else (z mod 128 + 128) :: varint n' (z / 128)
  end.
Definition varint64 (z : Z) : bytes := varint 10 z.
Definition varint32 (z : Z) : bytes := varint 5 z.
(* rt::compute_raw_varint64_size / compute_raw_varint32_size *)
Fixpoint varint_size (n : nat) (z : Z) : Z :=
  match n with
  | O => 0
  | S n' => if z <? 128 then 1 else 1 + varint_size n' (z / 128)
  end.
Definition varint64_size (z : Z) : Z := varint_size 10 z.
Definition varint32_size (z : Z) : Z := varint_size 5 z.

(* CodedInputStream::read_raw_varint64: an error after ten bytes; bits beyond 64 are lost *)
Fixpoint read_varint (n : nat) (shift acc : Z) (b : bytes) : option (Z * bytes) :=
  match n with
  | O => None
  | S n' =>
      match b with
      | [] => None
      | x :: b' =>
          let acc := acc + (x mod 128) * 2 ^ shift in
          if x <? 128 then Some (acc mod 2 ^ 64, b') else read_varint n' (shift + 7) acc b'
      end
  end.
Definition read_varint64 (b : bytes) : option (Z * bytes) := read_varint 10 0 0 b.
(* read_raw_varint32: the low 32 bits of the above *)
Definition read_varint32 (b : bytes) : option (Z * bytes) :=
  match read_varint64 b with Some (z, b') => Some (z mod 2 ^ 32, b') | None => None end.

(* wire_format::WireType *)
Definition WVarint : Z := 0.
Definition WFixed64 : Z := 1.
Definition WLen : Z := 2.
Definition WStartGroup : Z := 3.
Definition WEndGroup : Z := 4.
Definition WFixed32 : Z := 5.

(* CodedOutputStream::write_tag; rt::tag_size *)
Definition tag (number wt : Z) : bytes := varint32 (number * 8 + wt).
Definition tag_size (number : Z) : Z := varint32_size (number * 8).
(* read_tag_unpack: wire types above 5 and field number 0 are errors *)
Definition read_tag (b : bytes) : option (Z * Z * bytes) :=
  match read_varint32 b with
  | None => None
  | Some (v, b') =>
      if (v mod 8 <=? 5) && negb (v / 8 =? 0) then Some (v / 8, v mod 8, b') else None
  end.

(* little-endian fixed-size numbers *)
Fixpoint le_bytes (n : nat) (z : Z) : bytes :=
  match n with O => [] | S n' => z mod 256 :: le_bytes n' (z / 256) end.
Fixpoint from_le (b : bytes) : Z :=
  match b with [] => 0 | x :: b' => x + 256 * from_le b' end.
(* read_raw_bytes *)
Definition read_bytes (len : Z) (b : bytes) : option (bytes * bytes) :=
  if Z.of_nat (length b) <? len then None
  else Some (firstn (Z.to_nat len) b, skipn (Z.to_nat len) b).
Definition read_fixed (n : nat) (b : bytes) : option (Z * bytes) :=
  match read_bytes (Z.of_nat n) b with Some (x, b') => Some (from_le x, b') | None => None end.

(* std::str::from_utf8 accepts *)
Definition follow (c : Z) : bool := (128 <=? c) && (c <? 192).
Definition between (a c b : Z) : bool := (a <=? c) && (c <=? b).
Fixpoint utf8 (b : bytes) : bool :=
  match b with
  | [] => true
  | a :: b1 =>
      if a <? 128 then utf8 b1
      else match b1 with
      | [] => false
      | c1 :: b2 =>
          if between 194 a 223 then follow c1 && utf8 b2
          else match b2 with
          | [] => false
          | c2 :: b3 =>
              if between 224 a 239 then
                between (if a =? 224 then 160 else 128) c1 (if a =? 237 then 159 else 191)
                && follow c2 && utf8 b3
              else match b3 with
              | [] => false
              | c3 :: b4 =>
                  between 240 a 244 &&
                  between (if a =? 240 then 144 else 128) c1 (if a =? 244 then 143 else 191)
                  && follow c2 && follow c3 && utf8 b4
              end
          end
      end
  end.

(* ------------------------------------------------------------------ *)
(** * Unknown fields (protobuf crate) *)

(* UnknownFields: number and value, in the order in which the hash map lists them *)
Inductive uval := UVarint (z : Z) | UFixed64 (z : Z) | UFixed32 (z : Z) | UBytes (b : bytes).
Definition unknowns := list (Z * uval).

(* CodedOutputStream::write_unknown *)
Definition write_unknown (u : Z * uval) : bytes :=
  match snd u with
  | UVarint z => tag (fst u) WVarint ++ varint64 z
  | UFixed64 z => tag (fst u) WFixed64 ++ le_bytes 8 z
  | UFixed32 z => tag (fst u) WFixed32 ++ le_bytes 4 z
  | UBytes b => tag (fst u) WLen ++ varint32 (Z.of_nat (length b)) ++ b
  end.
Definition write_unknowns (l : unknowns) : bytes := concat (map write_unknown l).
(* rt::unknown_fields_size *)
Definition unknown_size (u : Z * uval) : Z :=
  tag_size (fst u) +
  match snd u with
  | UVarint z => varint64_size z
  | UFixed64 _ => 8
  | UFixed32 _ => 4
  | UBytes b => varint32_size (Z.of_nat (length b)) + Z.of_nat (length b)
  end.
Definition sum (l : list Z) : Z := fold_right Z.add 0 l.
Definition unknowns_size (l : unknowns) : Z := sum (map unknown_size l).

(* read_unknown, but for groups *)
Definition read_unknown (wt : Z) (b : bytes) : option (uval * bytes) :=
  if wt =? WVarint then match read_varint64 b with Some (z, b') => Some (UVarint z, b') | None => None end
  else if wt =? WFixed64 then match read_fixed 8 b with Some (z, b') => Some (UFixed64 z, b') | None => None end
  else if wt =? WFixed32 then match read_fixed 4 b with Some (z, b') => Some (UFixed32 z, b') | None => None end
  else if wt =? WLen then
    match read_varint32 b with
    | None => None
    | Some (len, b') => match read_bytes len b' with Some (x, b'') => Some (UBytes x, b'') | None => None end
    end
  else None.
(* skip_group: up to the matching end tag.  [n] bounds the bytes read; every caller gives more
   than there are *)
Fixpoint skip_group (n : nat) (b : bytes) : option bytes :=
  match n with
  | O => None
  | S n' =>
      match read_tag b with
      | None => None
      | Some (_, wt, b1) =>
          if wt =? WEndGroup then Some b1
          else if wt =? WStartGroup then
            match skip_group n' b1 with Some b2 => skip_group n' b2 | None => None end
          else match read_unknown wt b1 with Some (_, b2) => skip_group n' b2 | None => None end
      end
  end.
(* rt::read_unknown_or_skip_group: the unknown fields then, and the rest (None: error) *)
Definition read_unknown_or_skip_group (number wt : Z) (b : bytes) (u : unknowns) : unknowns * option bytes :=
  if wt =? WStartGroup then (u, skip_group (S (length b)) b)
  else match read_unknown wt b with
       | Some (x, b') => (u ++ [(number, x)], Some b')
       | None => (u, None)
       end.

(* ------------------------------------------------------------------ *)
(** * Reading messages *)

(* The loop of every merge_from (e.g. src/proto/types.rs:85-121): until the end of the input or
   the limit of the message.  [b]: the input up to the limit.  [short]: how far the limit lies
   beyond the end of the input.  [field]: one field, after its tag; returns the message then and
   the rest, None being an error.  The result: the message, and whether there was no error. *)
Fixpoint fields {M} (field : Z -> Z -> Z -> bytes -> M -> M * option bytes) (n : nat) (short : Z)
    (b : bytes) (m : M) : M * bool :=
  match n with
  | O => (m, false)
  | S n' =>
      match b with
      | [] => (m, true)
      | _ =>
          match read_tag b with
          | None => (m, false)
          | Some (number, wt, b1) =>
              match field short number wt b1 m with
              | (m', None) => (m', false)
              | (m', Some b2) => fields field n' short b2 m'
              end
          end
      end
  end.
Definition reader (M : Type) := Z -> bytes -> M -> M * bool.
Definition reads {M} (field : Z -> Z -> Z -> bytes -> M -> M * option bytes) : reader M :=
  fun short b m => fields field (S (length b)) short b m.
(* a whole body: the limit is u64::MAX *)
Definition merge_from {M} (r : reader M) (b : bytes) (m : M) : M * bool :=
  r (2 ^ 64 - 1 - Z.of_nat (length b)) b m.

(* CodedInputStream::merge_message: push_limit fails beyond the limit of the parent *)
Definition merge_message {A} (r : reader A) (short : Z) (b : bytes) (a : A) : A * option bytes :=
  match read_varint64 b with
  | None => (a, None)
  | Some (len, b1) =>
      let have := Z.of_nat (length b1) in
      if have + short <? len then (a, None)
      else
        let n := Z.to_nat (Z.min len have) in
        let '(a', ok) := r (Z.max 0 (len - have)) (firstn n b1) a in
        (a', if ok : bool then Some (skipn n b1) else None)
  end.
(* rt::read_repeated_message_into: a new element is pushed, then filled *)
Definition read_repeated {A} (r : reader A) (new : A) (short wt : Z) (b : bytes) (l : list A)
  : list A * option bytes :=
  if wt =? WLen then let '(a, rest) := merge_message r short b new in (l ++ [a], rest)
  else (l, None).
(* rt::read_singular_message_into: the field is reset, then filled *)
Definition read_singular {A} (r : reader A) (new : A) (short wt : Z) (b : bytes) (o : option A)
  : option A * option bytes :=
  if wt =? WLen then let '(a, rest) := merge_message r short b new in (Some a, rest)
  else (o, None).
(* rt::read_singular_proto3_string_into: the field is emptied, then filled *)
Definition read_string (wt : Z) (b : bytes) (s : bytes) : bytes * option bytes :=
  if wt =? WLen then
    match read_varint32 b with
    | None => (s, None)
    | Some (len, b1) =>
        match read_bytes len b1 with
        | None => ([], None)
        | Some (x, b2) => if utf8 x then (x, Some b2) else ([], None)
        end
    end
  else (s, None).
(* read_int64 / read_double, with the check of the wire type *)
Definition read_int64 (wt : Z) (b : bytes) (old : Z) : Z * option bytes :=
  if wt =? WVarint then
    match read_varint64 b with Some (z, b') => (wraps 64 z, Some b') | None => (old, None) end
  else (old, None).
Definition read_double (wt : Z) (b : bytes) (old : Z) : Z * option bytes :=
  if wt =? WFixed64 then
    match read_fixed 8 b with Some (z, b') => (z, Some b') | None => (old, None) end
  else (old, None).
(* read_int32, for enums *)
Definition read_int32 (b : bytes) : option (Z * bytes) :=
  match read_varint32 b with Some (z, b') => Some (wraps 32 z, b') | None => None end.

(* writing: write_int64, write_double, write_string, write_enum; the size is written before an
   inner message (e.g. src/proto/types.rs:381-385) *)
Definition w_int64 (number z : Z) : bytes := tag number WVarint ++ varint64 (wrapu 64 z).
Definition w_double (number z : Z) : bytes := tag number WFixed64 ++ le_bytes 8 z.
Definition w_string (number : Z) (s : bytes) : bytes := tag number WLen ++ varint32 (Z.of_nat (length s)) ++ s.
Definition w_enum (number z : Z) : bytes := tag number WVarint ++ varint64 (wrapu 64 z).
Definition w_message (number size : Z) (body : bytes) : bytes := tag number WLen ++ varint32 size ++ body.
(* rt::value_size, rt::string_size, rt::enum_size; of an inner message (e.g. types.rs:364-367) *)
Definition int64_size (number z : Z) : Z := tag_size number + varint64_size (wrapu 64 z).
Definition string_size (number : Z) (s : bytes) : Z :=
  tag_size number + varint32_size (Z.of_nat (length s)) + Z.of_nat (length s).
Definition enum_size (number z : Z) : Z := tag_size number + varint32_size z.
Definition message_size (len : Z) : Z := 1 + varint32_size len + len.
(* [if cond { ... }] *)
Definition opt (c : bool) (b : bytes) : bytes := if c then b else [].
Definition optz (c : bool) (z : Z) : Z := if c then z else 0.
Definition nonempty (s : bytes) : bool := match s with [] => false | _ => true end.

(* f64 comparison with 0.: false for both zeros, true for a NaN *)
Definition nonzero_f64 (bits : Z) : bool := negb ((bits =? 0) || (bits =? 2 ^ 63)).

(* ------------------------------------------------------------------ *)
(** * types.rs *)

(* src/proto/types.rs:30-38; the value as its bit pattern *)
Record sample := mkSample { sm_value : Z; sm_ts : Z; sm_unk : unknowns }.
Definition sample_new : sample := mkSample 0 0 [].
(* types.rs:85-121 *)
Definition sample_field (short number wt : Z) (b : bytes) (m : sample) : sample * option bytes :=
  let '(mkSample v t u) := m in
  if number =? 1 then let '(v', r) := read_double wt b v in (mkSample v' t u, r)
  else if number =? 2 then let '(t', r) := read_int64 wt b t in (mkSample v t' u, r)
  else let '(u', r) := read_unknown_or_skip_group number wt b u in (mkSample v t u', r).
Definition sample_read : reader sample := reads sample_field.
(* types.rs:125-140 *)
Definition sample_size (m : sample) : Z :=
  optz (nonzero_f64 (sm_value m)) 9 + optz (negb (sm_ts m =? 0)) (int64_size 2 (sm_ts m)) + unknowns_size (sm_unk m).
(* types.rs:142-155 *)
Definition sample_write (m : sample) : bytes :=
  opt (nonzero_f64 (sm_value m)) (w_double 1 (sm_value m)) ++ opt (negb (sm_ts m =? 0)) (w_int64 2 (sm_ts m))
  ++ write_unknowns (sm_unk m).

(* types.rs:492-500 *)
Record plabel := mkPLabel { pl_name : bytes; pl_value : bytes; pl_unk : unknowns }.
Definition plabel_new : plabel := mkPLabel [] [] [].
(* types.rs:569-601 *)
Definition plabel_field (short number wt : Z) (b : bytes) (m : plabel) : plabel * option bytes :=
  let '(mkPLabel n v u) := m in
  if number =? 1 then let '(n', r) := read_string wt b n in (mkPLabel n' v u, r)
  else if number =? 2 then let '(v', r) := read_string wt b v in (mkPLabel n v' u, r)
  else let '(u', r) := read_unknown_or_skip_group number wt b u in (mkPLabel n v u', r).
Definition plabel_read : reader plabel := reads plabel_field.
(* types.rs:605-616 *)
Definition plabel_size (m : plabel) : Z :=
  optz (nonempty (pl_name m)) (string_size 1 (pl_name m)) + optz (nonempty (pl_value m)) (string_size 2 (pl_value m))
  + unknowns_size (pl_unk m).
(* types.rs:618-630 *)
Definition plabel_write (m : plabel) : bytes :=
  opt (nonempty (pl_name m)) (w_string 1 (pl_name m)) ++ opt (nonempty (pl_value m)) (w_string 2 (pl_value m))
  ++ write_unknowns (pl_unk m).

(* types.rs:249-257 *)
Record pseries := mkPSeries { ps_labels : list plabel; ps_samples : list sample; ps_unk : unknowns }.
Definition pseries_new : pseries := mkPSeries [] [] [].
(* types.rs:334-358 *)
Definition pseries_field (short number wt : Z) (b : bytes) (m : pseries) : pseries * option bytes :=
  let '(mkPSeries ls ss u) := m in
  if number =? 1 then let '(ls', r) := read_repeated plabel_read plabel_new short wt b ls in (mkPSeries ls' ss u, r)
  else if number =? 2 then let '(ss', r) := read_repeated sample_read sample_new short wt b ss in (mkPSeries ls ss' u, r)
  else let '(u', r) := read_unknown_or_skip_group number wt b u in (mkPSeries ls ss u', r).
Definition pseries_read : reader pseries := reads pseries_field.
(* types.rs:362-375 *)
Definition pseries_size (m : pseries) : Z :=
  sum (map (fun x => message_size (plabel_size x)) (ps_labels m))
  + sum (map (fun x => message_size (sample_size x)) (ps_samples m)) + unknowns_size (ps_unk m).
(* types.rs:377-393 *)
Definition pseries_write (m : pseries) : bytes :=
  concat (map (fun x => w_message 1 (plabel_size x) (plabel_write x)) (ps_labels m))
  ++ concat (map (fun x => w_message 2 (sample_size x) (sample_write x)) (ps_samples m))
  ++ write_unknowns (ps_unk m).

(* types.rs:1179-1202 LabelMatcher_Type: value and from_i32 *)
Inductive mtype := EQ | NEQ | RE | NRE.
Definition mtype_value (t : mtype) : Z := match t with EQ => 0 | NEQ => 1 | RE => 2 | NRE => 3 end.
Definition mtype_from (z : Z) : option mtype :=
  if z =? 0 then Some EQ else if z =? 1 then Some NEQ else if z =? 2 then Some RE
  else if z =? 3 then Some NRE else None.
(* types.rs:913-922 *)
Record matcher := mkMatcher { mt_type : mtype; mt_name : bytes; mt_value : bytes; mt_unk : unknowns }.
Definition matcher_new : matcher := mkMatcher EQ [] [] [].
(* types.rs:1005-1044; rt::read_proto3_enum_with_unknown_fields_into *)
Definition matcher_field (short number wt : Z) (b : bytes) (m : matcher) : matcher * option bytes :=
  let '(mkMatcher t n v u) := m in
  if number =? 1 then
    if wt =? WVarint then
      match read_int32 b with
      | None => (m, None)
      | Some (z, b') =>
          match mtype_from z with
          | Some t' => (mkMatcher t' n v u, Some b')
          | None => (mkMatcher t n v (u ++ [(1, UVarint (wrapu 64 z))]), Some b')
          end
      end
    else (m, None)
  else if number =? 2 then let '(n', r) := read_string wt b n in (mkMatcher t n' v u, r)
  else if number =? 3 then let '(v', r) := read_string wt b v in (mkMatcher t n v' u, r)
  else let '(u', r) := read_unknown_or_skip_group number wt b u in (mkMatcher t n v u', r).
Definition matcher_read : reader matcher := reads matcher_field.
(* types.rs:1048-1062 *)
Definition not_eq (t : mtype) : bool := match t with EQ => false | _ => true end.
Definition matcher_size (m : matcher) : Z :=
  optz (not_eq (mt_type m)) (enum_size 1 (mtype_value (mt_type m)))
  + optz (nonempty (mt_name m)) (string_size 2 (mt_name m)) + optz (nonempty (mt_value m)) (string_size 3 (mt_value m))
  + unknowns_size (mt_unk m).
(* types.rs:1064-1079 *)
Definition matcher_write (m : matcher) : bytes :=
  opt (not_eq (mt_type m)) (w_enum 1 (mtype_value (mt_type m)))
  ++ opt (nonempty (mt_name m)) (w_string 2 (mt_name m)) ++ opt (nonempty (mt_value m)) (w_string 3 (mt_value m))
  ++ write_unknowns (mt_unk m).

(* types.rs:1247-1257 *)
Record hints := mkHints { hi_step : Z; hi_func : bytes; hi_start : Z; hi_end : Z; hi_unk : unknowns }.
Definition hints_new : hints := mkHints 0 [] 0 0 [].
(* types.rs:1343-1395 *)
Definition hints_field (short number wt : Z) (b : bytes) (m : hints) : hints * option bytes :=
  let '(mkHints st f s e u) := m in
  if number =? 1 then let '(st', r) := read_int64 wt b st in (mkHints st' f s e u, r)
  else if number =? 2 then let '(f', r) := read_string wt b f in (mkHints st f' s e u, r)
  else if number =? 3 then let '(s', r) := read_int64 wt b s in (mkHints st f s' e u, r)
  else if number =? 4 then let '(e', r) := read_int64 wt b e in (mkHints st f s e' u, r)
  else let '(u', r) := read_unknown_or_skip_group number wt b u in (mkHints st f s e u', r).
Definition hints_read : reader hints := reads hints_field.
(* types.rs:1399-1425 *)
Definition hints_size (m : hints) : Z :=
  optz (negb (hi_step m =? 0)) (int64_size 1 (hi_step m)) + optz (nonempty (hi_func m)) (string_size 2 (hi_func m))
  + optz (negb (hi_start m =? 0)) (int64_size 3 (hi_start m)) + optz (negb (hi_end m =? 0)) (int64_size 4 (hi_end m))
  + unknowns_size (hi_unk m).
(* types.rs:1427-1445 *)
Definition hints_write (m : hints) : bytes :=
  opt (negb (hi_step m =? 0)) (w_int64 1 (hi_step m)) ++ opt (nonempty (hi_func m)) (w_string 2 (hi_func m))
  ++ opt (negb (hi_start m =? 0)) (w_int64 3 (hi_start m)) ++ opt (negb (hi_end m =? 0)) (w_int64 4 (hi_end m))
  ++ write_unknowns (hi_unk m).

(* ------------------------------------------------------------------ *)
(** * remote.rs *)

(* src/proto/remote.rs:29-36 *)
Record write_request := mkWriteReq { wq_series : list pseries; wq_unk : unknowns }.
Definition write_request_new : write_request := mkWriteReq [] [].
(* remote.rs:85-110 *)
Definition write_request_field (short number wt : Z) (b : bytes) (m : write_request) : write_request * option bytes :=
  let '(mkWriteReq l u) := m in
  if number =? 1 then let '(l', r) := read_repeated pseries_read pseries_new short wt b l in (mkWriteReq l' u, r)
  else let '(u', r) := read_unknown_or_skip_group number wt b u in (mkWriteReq l u', r).
Definition write_request_read : reader write_request := reads write_request_field.
(* remote.rs:114-123, 125-136 *)
Definition write_request_size (m : write_request) : Z :=
  sum (map (fun x => message_size (pseries_size x)) (wq_series m)) + unknowns_size (wq_unk m).
Definition write_request_write (m : write_request) : bytes :=
  concat (map (fun x => w_message 1 (pseries_size x) (pseries_write x)) (wq_series m)) ++ write_unknowns (wq_unk m).

(* remote.rs:711-721 *)
Record pquery := mkPQuery { pq_start : Z; pq_end : Z; pq_matchers : list matcher; pq_hints : option hints;
                            pq_unk : unknowns }.
Definition pquery_new : pquery := mkPQuery 0 0 [] None [].
(* remote.rs:838-880 *)
Definition pquery_field (short number wt : Z) (b : bytes) (m : pquery) : pquery * option bytes :=
  let '(mkPQuery s e ms h u) := m in
  if number =? 1 then let '(s', r) := read_int64 wt b s in (mkPQuery s' e ms h u, r)
  else if number =? 2 then let '(e', r) := read_int64 wt b e in (mkPQuery s e' ms h u, r)
  else if number =? 3 then let '(ms', r) := read_repeated matcher_read matcher_new short wt b ms in (mkPQuery s e ms' h u, r)
  else if number =? 4 then let '(h', r) := read_singular hints_read hints_new short wt b h in (mkPQuery s e ms h' u, r)
  else let '(u', r) := read_unknown_or_skip_group number wt b u in (mkPQuery s e ms h u', r).
Definition pquery_read : reader pquery := reads pquery_field.
(* remote.rs:884-911 *)
Definition pquery_size (m : pquery) : Z :=
  optz (negb (pq_start m =? 0)) (int64_size 1 (pq_start m)) + optz (negb (pq_end m =? 0)) (int64_size 2 (pq_end m))
  + sum (map (fun x => message_size (matcher_size x)) (pq_matchers m))
  + match pq_hints m with Some h => message_size (hints_size h) | None => 0 end + unknowns_size (pq_unk m).
(* remote.rs:913-936 *)
Definition pquery_write (m : pquery) : bytes :=
  opt (negb (pq_start m =? 0)) (w_int64 1 (pq_start m)) ++ opt (negb (pq_end m =? 0)) (w_int64 2 (pq_end m))
  ++ concat (map (fun x => w_message 3 (matcher_size x) (matcher_write x)) (pq_matchers m))
  ++ match pq_hints m with Some h => w_message 4 (hints_size h) (hints_write h) | None => [] end
  ++ write_unknowns (pq_unk m).

(* remote.rs:462-480 ReadRequest_ResponseType *)
Inductive rtype := SAMPLES | STREAMED_XOR_CHUNKS.
Definition rtype_value (t : rtype) : Z := match t with SAMPLES => 0 | STREAMED_XOR_CHUNKS => 1 end.
Definition rtype_from (z : Z) : option rtype :=
  if z =? 0 then Some SAMPLES else if z =? 1 then Some STREAMED_XOR_CHUNKS else None.
(* remote.rs:224-232 *)
Record read_request := mkReadReq { rq_queries : list pquery; rq_types : list rtype; rq_unk : unknowns }.
Definition read_request_new : read_request := mkReadReq [] [] [].
(* one value of the repeated enum *)
Definition add_type (z : Z) (ts : list rtype) (u : unknowns) : list rtype * unknowns :=
  match rtype_from z with
  | Some t => (ts ++ [t], u)
  | None => (ts, u ++ [(2, UVarint (wrapu 64 z))])
  end.
(* the packed form: values up to the limit *)
Fixpoint read_packed (n : nat) (b : bytes) (ts : list rtype) (u : unknowns) : list rtype * unknowns * bool :=
  match n with
  | O => (ts, u, false)
  | S n' =>
      match b with
      | [] => (ts, u, true)
      | _ => match read_int32 b with
             | None => (ts, u, false)
             | Some (z, b') => let '(ts', u') := add_type z ts u in read_packed n' b' ts' u'
             end
      end
  end.
(* remote.rs:306-334; rt::read_repeated_enum_with_unknown_fields_into *)
Definition read_request_field (short number wt : Z) (b : bytes) (m : read_request) : read_request * option bytes :=
  let '(mkReadReq qs ts u) := m in
  if number =? 1 then let '(qs', r) := read_repeated pquery_read pquery_new short wt b qs in (mkReadReq qs' ts u, r)
  else if number =? 2 then
    if wt =? WLen then
      let '((ts', u'), r) :=
        merge_message (fun _ b '(ts, u) => read_packed (S (length b)) b ts u) short b (ts, u) in
      (mkReadReq qs ts' u', r)
    else if wt =? WVarint then
      match read_int32 b with
      | None => (m, None)
      | Some (z, b') => let '(ts', u') := add_type z ts u in (mkReadReq qs ts' u', Some b')
      end
    else (m, None)
  else let '(u', r) := read_unknown_or_skip_group number wt b u in (mkReadReq qs ts u', r).
Definition read_request_read : reader read_request := reads read_request_field.
(* remote.rs:338-350, 352-366 *)
Definition read_request_size (m : read_request) : Z :=
  sum (map (fun x => message_size (pquery_size x)) (rq_queries m))
  + sum (map (fun t => enum_size 2 (rtype_value t)) (rq_types m)) + unknowns_size (rq_unk m).
Definition read_request_write (m : read_request) : bytes :=
  concat (map (fun x => w_message 1 (pquery_size x) (pquery_write x)) (rq_queries m))
  ++ concat (map (fun t => w_enum 2 (rtype_value t)) (rq_types m)) ++ write_unknowns (rq_unk m).

(* remote.rs:1050-1057, 1105-1130, 1134-1156 *)
Record query_result := mkQResult { qr_series : list pseries; qr_unk : unknowns }.
Definition query_result_new : query_result := mkQResult [] [].
Definition query_result_field (short number wt : Z) (b : bytes) (m : query_result) : query_result * option bytes :=
  let '(mkQResult l u) := m in
  if number =? 1 then let '(l', r) := read_repeated pseries_read pseries_new short wt b l in (mkQResult l' u, r)
  else let '(u', r) := read_unknown_or_skip_group number wt b u in (mkQResult l u', r).
Definition query_result_read : reader query_result := reads query_result_field.
Definition query_result_size (m : query_result) : Z :=
  sum (map (fun x => message_size (pseries_size x)) (qr_series m)) + unknowns_size (qr_unk m).
Definition query_result_write (m : query_result) : bytes :=
  concat (map (fun x => w_message 1 (pseries_size x) (pseries_write x)) (qr_series m)) ++ write_unknowns (qr_unk m).

(* remote.rs:521-528, 576-597, 601-623 *)
Record read_response := mkReadResp { rp_results : list query_result; rp_unk : unknowns }.
Definition read_response_new : read_response := mkReadResp [] [].
Definition read_response_field (short number wt : Z) (b : bytes) (m : read_response) : read_response * option bytes :=
  let '(mkReadResp l u) := m in
  if number =? 1 then let '(l', r) := read_repeated query_result_read query_result_new short wt b l in (mkReadResp l' u, r)
  else let '(u', r) := read_unknown_or_skip_group number wt b u in (mkReadResp l u', r).
Definition read_response_read : reader read_response := reads read_response_field.
Definition read_response_size (m : read_response) : Z :=
  sum (map (fun x => message_size (query_result_size x)) (rp_results m)) + unknowns_size (rp_unk m).
Definition read_response_write (m : read_response) : bytes :=
  concat (map (fun x => w_message 1 (query_result_size x) (query_result_write x)) (rp_results m))
  ++ write_unknowns (rp_unk m).
