(* Specification vocabulary for reading messages: the protobuf wire format as a grammar over byte
   strings, message descriptions as tables of field numbers, and the message a list of fields stands
   for.  Nothing here uses the readers of Proto.v or Stream.v. *)
From Verif Require Import Rust Proto Stream.

(* ------------------------------------------------------------------ *)
(** * Text: the UTF-8 encoding of a sequence of Unicode scalar values *)

Definition scalar (c : Z) : Prop := 0 <= c < 1114112 /\ ~ 55296 <= c < 57344.
Definition encode_scalar (c : Z) : bytes :=
  if c <? 128 then [c]
  else if c <? 2048 then [192 + c / 64; 128 + c mod 64]
  else if c <? 65536 then [224 + c / 4096; 128 + c / 64 mod 64; 128 + c mod 64]
  else [240 + c / 262144; 128 + c / 4096 mod 64; 128 + c / 64 mod 64; 128 + c mod 64].
Definition unicode (b : bytes) : Prop := exists cs, Forall scalar cs /\ b = concat (map encode_scalar cs).

(* ------------------------------------------------------------------ *)
(** * The grammar *)

(* a number: 7 bits per byte, low bits first, the top bit set in all bytes but the last; at most ten
   bytes, of which 64 bits count *)
Fixpoint sevens (l : bytes) : Z := match l with [] => 0 | x :: l' => x mod 128 + 128 * sevens l' end.
Definition number_in (l : bytes) (z : Z) : Prop :=
  (exists init x, l = init ++ [x] /\ Forall (fun y => 128 <= y) init /\ x < 128) /\ (length l <= 10)%nat /\
  z = sevens l mod 2 ^ 64.
(* a tag: field number and wire type; 32 bits count *)
Definition tag_in (l : bytes) (number wt : Z) : Prop :=
  exists z, number_in l z /\ z mod 2 ^ 32 = number * 8 + wt /\ 0 < number /\ 0 <= wt <= 5.
(* little-endian *)
Fixpoint little (l : bytes) : Z := match l with [] => 0 | x :: l' => x + 256 * little l' end.
(* a length and so many bytes; 32 bits of the length count *)
Definition block_in (p x : bytes) : Prop :=
  exists l len, p = l ++ x /\ number_in l len /\ Z.of_nat (length x) = len mod 2 ^ 32.

(* what a field can hold *)
Inductive fval :=
| VNum (z : Z) | V64 (z : Z) | V32 (z : Z) | VBytes (b : bytes)
| VNums (l : list Z)                        (* packed numbers *)
| VMsg (fs : list (Z * fval))               (* a message: its fields *)
| VGroup.                                   (* a group, ignored *)
(* what a message expects under a field number *)
Inductive kind := KNum | K64 | KText | KData | KNums | KMsg (d : list (Z * kind)).
Definition desc := list (Z * kind).
Definition kind_of (d : desc) (number : Z) : option kind :=
  option_map snd (find (fun x => fst x =? number) d).

(* a value of a field that is not known, by wire type *)
Inductive plain : Z -> bytes -> fval -> Prop :=
| plain_num p z : number_in p z -> plain 0 p (VNum z)
| plain_64 p : length p = 8%nat -> plain 1 p (V64 (little p))
| plain_bytes p x : block_in p x -> plain 2 p (VBytes x)
| plain_32 p : length p = 4%nat -> plain 5 p (V32 (little p)).
(* a group after its start tag, with its end tag; the numbers of the two need not agree *)
Inductive group : bytes -> Prop :=
| group_end t n : tag_in t n 4 -> group t
| group_inner t n g rest : tag_in t n 3 -> group g -> group rest -> group (t ++ g ++ rest)
| group_field t n wt p v rest : tag_in t n wt -> plain wt p v -> group rest -> group (t ++ p ++ rest).
(* numbers one after the other *)
Inductive packed : bytes -> list Z -> Prop :=
| packed_nil : packed [] []
| packed_cons l z b zs : number_in l z -> packed b zs -> packed (l ++ b) (z :: zs).

(* [extent short len body rest]: body is the len bytes the length announces; or it is all there is,
   though more was announced, by no more than [short] (how far the message around it is cut itself):
   the crate takes an end of the input between two fields for the end of all messages it is in *)
Definition extent (short len : Z) (body rest : bytes) : Prop :=
  Z.of_nat (length body) = len \/ (rest = [] /\ Z.of_nat (length body) < len <= Z.of_nat (length body) + short).
(* [fields_in d short b fs]: b is the fields fs of a message described by d;
   [value_in d short number wt p rest v]: p, followed by rest, is the value v of such a field *)
Inductive fields_in : desc -> Z -> bytes -> list (Z * fval) -> Prop :=
| fields_end d short : fields_in d short [] []
| fields_more d short t number wt p v rest fs :
    tag_in t number wt -> value_in d short number wt p rest v -> fields_in d short rest fs ->
    fields_in d short (t ++ p ++ rest) ((number, v) :: fs)
with value_in : desc -> Z -> Z -> Z -> bytes -> bytes -> fval -> Prop :=
| value_num d short n p rest z : kind_of d n = Some KNum \/ kind_of d n = Some KNums -> number_in p z ->
    value_in d short n 0 p rest (VNum z)
| value_64 d short n p rest : kind_of d n = Some K64 -> length p = 8%nat -> value_in d short n 1 p rest (V64 (little p))
| value_text d short n p rest x : kind_of d n = Some KText -> block_in p x -> unicode x -> value_in d short n 2 p rest (VBytes x)
| value_data d short n p rest x : kind_of d n = Some KData -> block_in p x -> value_in d short n 2 p rest (VBytes x)
| value_nums d short n l len body rest zs : kind_of d n = Some KNums -> number_in l len -> extent short len body rest ->
    packed body zs -> value_in d short n 2 (l ++ body) rest (VNums zs)
| value_msg d short n d' l len body rest fs : kind_of d n = Some (KMsg d') -> number_in l len -> extent short len body rest ->
    fields_in d' (len - Z.of_nat (length body)) body fs -> value_in d short n 2 (l ++ body) rest (VMsg fs)
| value_plain d short n wt p rest v : kind_of d n = None -> plain wt p v -> value_in d short n wt p rest v
| value_group d short n p rest : kind_of d n = None -> group p -> value_in d short n 3 p rest VGroup.
(* a whole body; the crate counts what is left to 2^64 - 1 *)
Definition body_in (d : desc) (b : bytes) (fs : list (Z * fval)) : Prop :=
  fields_in d (2 ^ 64 - 1 - Z.of_nat (length b)) b fs.

(* ------------------------------------------------------------------ *)
(** * Bodies that are no encoding: what had been taken when the reading stopped *)

Definition no_number (b : bytes) : Prop := forall l rest z, b = l ++ rest -> ~ number_in l z.
Definition no_tag (b : bytes) : Prop := forall t rest n wt, b = t ++ rest -> ~ tag_in t n wt.
Definition no_value (d : desc) (short n wt : Z) (b : bytes) : Prop :=
  forall p rest v, b = p ++ rest -> ~ value_in d short n wt p rest v.
(* kinds that come with a length *)
Definition sized (k : kind) : bool := match k with KNum | K64 => false | _ => true end.
(* [wrong_in d short b fs]: b is no sequence of fields of a message described by d; fs were taken
   from it.  [wrong_value d short number wt b vs]: b does not begin with a value of such a field;
   vs (none or one) was taken from it: of a text or data nothing but its presence, of an inner
   message its first fields, of packed numbers the first ones. *)
Inductive wrong_in : desc -> Z -> bytes -> list (Z * fval) -> Prop :=
| wrong_tag d short b : b <> [] -> no_tag b -> wrong_in d short b []
| wrong_here d short t number wt b vs :
    tag_in t number wt -> wrong_value d short number wt b vs -> wrong_in d short (t ++ b) (map (fun v => (number, v)) vs)
| wrong_later d short t number wt p v rest fs :
    tag_in t number wt -> value_in d short number wt p rest v -> wrong_in d short rest fs ->
    wrong_in d short (t ++ p ++ rest) ((number, v) :: fs)
with wrong_value : desc -> Z -> Z -> Z -> bytes -> list fval -> Prop :=
| wrong_plain d short n wt b : no_value d short n wt b ->
    wt <> 2 \/ (forall k, kind_of d n = Some k -> sized k = false) -> wrong_value d short n wt b []
| wrong_bytes_length d short n b : kind_of d n = Some KText \/ kind_of d n = Some KData -> no_number b -> wrong_value d short n 2 b []
| wrong_bytes d short n l len b : kind_of d n = Some KText \/ kind_of d n = Some KData -> number_in l len ->
    no_value d short n 2 (l ++ b) -> wrong_value d short n 2 (l ++ b) [VBytes []]
| wrong_nums_length d short n b : kind_of d n = Some KNums -> no_number b -> wrong_value d short n 2 b []
| wrong_nums_long d short n l len b : kind_of d n = Some KNums -> number_in l len -> Z.of_nat (length b) + short < len ->
    wrong_value d short n 2 (l ++ b) []
| wrong_nums d short n l len p q rest zs : kind_of d n = Some KNums -> number_in l len -> extent short len (p ++ q) rest ->
    packed p zs -> q <> [] -> no_number q -> wrong_value d short n 2 (l ++ (p ++ q) ++ rest) [VNums zs]
| wrong_msg_length d short n d' b : kind_of d n = Some (KMsg d') -> no_number b -> wrong_value d short n 2 b [VMsg []]
| wrong_msg_long d short n d' l len b : kind_of d n = Some (KMsg d') -> number_in l len -> Z.of_nat (length b) + short < len ->
    wrong_value d short n 2 (l ++ b) [VMsg []]
| wrong_msg d short n d' l len body rest fs : kind_of d n = Some (KMsg d') -> number_in l len -> extent short len body rest ->
    wrong_in d' (len - Z.of_nat (length body)) body fs -> wrong_value d short n 2 (l ++ body ++ rest) [VMsg fs].
(* a whole body *)
Definition stops_in (d : desc) (b : bytes) (fs : list (Z * fval)) : Prop :=
  wrong_in d (2 ^ 64 - 1 - Z.of_nat (length b)) b fs.

(* ------------------------------------------------------------------ *)
(** * The message a list of fields stands for: of repeated fields all, of others the last *)

Definition under (n : Z) (fs : list (Z * fval)) : list fval := map snd (filter (fun x => fst x =? n) fs).
Definition nums (n : Z) (fs : list (Z * fval)) : list Z :=
  flat_map (fun v => match v with VNum z => [z] | VNums l => l | _ => [] end) (under n fs).
Definition fixed64s (n : Z) (fs : list (Z * fval)) : list Z :=
  flat_map (fun v => match v with V64 z => [z] | _ => [] end) (under n fs).
Definition blocks (n : Z) (fs : list (Z * fval)) : list bytes :=
  flat_map (fun v => match v with VBytes b => [b] | _ => [] end) (under n fs).
Definition msgs (n : Z) (fs : list (Z * fval)) : list (list (Z * fval)) :=
  flat_map (fun v => match v with VMsg g => [g] | _ => [] end) (under n fs).
Definition int64 (n : Z) (fs : list (Z * fval)) : Z := wraps 64 (last (nums n fs) 0).
(* fields not known, in order; and numbers under an enum field that are not of the enum *)
Definition int32 (z : Z) : Z := wraps 32 (z mod 2 ^ 32).
Definition stray (enum : Z -> bool) (v : fval) : list uval :=
  match v with
  | VNum z => if enum (int32 z) then [] else [UVarint (wrapu 64 (int32 z))]
  | VNums l => map (fun z => UVarint (wrapu 64 (int32 z))) (filter (fun z => negb (enum (int32 z))) l)
  | _ => []
  end.
Definition others (d : desc) (enums : list (Z * (Z -> bool))) (fs : list (Z * fval)) : unknowns :=
  flat_map (fun x =>
    match kind_of d (fst x) with
    | None => match snd x with
              | VNum z => [(fst x, UVarint z)] | V64 z => [(fst x, UFixed64 z)]
              | V32 z => [(fst x, UFixed32 z)] | VBytes b => [(fst x, UBytes b)]
              | _ => []
              end
    | Some _ => match find (fun e => fst e =? fst x) enums with
                | Some e => map (fun u => (fst x, u)) (stray (snd e) (snd x))
                | None => []
                end
    end) fs.

Definition sample_desc : desc := [(1, K64); (2, KNum)].
Definition sample_of (fs : list (Z * fval)) : sample :=
  mkSample (last (fixed64s 1 fs) 0) (int64 2 fs) (others sample_desc [] fs).
Definition plabel_desc : desc := [(1, KText); (2, KText)].
Definition plabel_of (fs : list (Z * fval)) : plabel :=
  mkPLabel (last (blocks 1 fs) []) (last (blocks 2 fs) []) (others plabel_desc [] fs).
Definition pseries_desc : desc := [(1, KMsg plabel_desc); (2, KMsg sample_desc)].
Definition pseries_of (fs : list (Z * fval)) : pseries :=
  mkPSeries (map plabel_of (msgs 1 fs)) (map sample_of (msgs 2 fs)) (others pseries_desc [] fs).
(* EQ = 0, NEQ = 1, RE = 2, NRE = 3 *)
Definition is_mtype (z : Z) : bool := (0 <=? z) && (z <=? 3).
Definition mtype_named (z : Z) : mtype := if z =? 3 then NRE else if z =? 2 then RE else if z =? 1 then NEQ else EQ.
Definition matcher_desc : desc := [(1, KNum); (2, KText); (3, KText)].
Definition matcher_of (fs : list (Z * fval)) : matcher :=
  mkMatcher (last (map mtype_named (filter is_mtype (map int32 (nums 1 fs)))) EQ) (last (blocks 2 fs) []) (last (blocks 3 fs) [])
    (others matcher_desc [(1, is_mtype)] fs).
Definition hints_desc : desc := [(1, KNum); (2, KText); (3, KNum); (4, KNum)].
Definition hints_of (fs : list (Z * fval)) : hints :=
  mkHints (int64 1 fs) (last (blocks 2 fs) []) (int64 3 fs) (int64 4 fs) (others hints_desc [] fs).
Definition pquery_desc : desc := [(1, KNum); (2, KNum); (3, KMsg matcher_desc); (4, KMsg hints_desc)].
Definition pquery_of (fs : list (Z * fval)) : pquery :=
  mkPQuery (int64 1 fs) (int64 2 fs) (map matcher_of (msgs 3 fs)) (last (map (fun g => Some (hints_of g)) (msgs 4 fs)) None)
    (others pquery_desc [] fs).
(* SAMPLES = 0, STREAMED_XOR_CHUNKS = 1 *)
Definition is_bit (z : Z) : bool := (z =? 0) || (z =? 1).
Definition rtype_named (z : Z) : rtype := if z =? 1 then STREAMED_XOR_CHUNKS else SAMPLES.
Definition read_request_desc : desc := [(1, KMsg pquery_desc); (2, KNums)].
Definition read_request_of (fs : list (Z * fval)) : read_request :=
  mkReadReq (map pquery_of (msgs 1 fs)) (map rtype_named (filter is_bit (map int32 (nums 2 fs)))) (others read_request_desc [(2, is_bit)] fs).
Definition write_request_desc : desc := [(1, KMsg pseries_desc)].
Definition write_request_of (fs : list (Z * fval)) : write_request :=
  mkWriteReq (map pseries_of (msgs 1 fs)) (others write_request_desc [] fs).
Definition query_result_desc : desc := [(1, KMsg pseries_desc)].
Definition query_result_of (fs : list (Z * fval)) : query_result :=
  mkQResult (map pseries_of (msgs 1 fs)) (others query_result_desc [] fs).
Definition read_response_desc : desc := [(1, KMsg query_result_desc)].
Definition read_response_of (fs : list (Z * fval)) : read_response :=
  mkReadResp (map query_result_of (msgs 1 fs)) (others read_response_desc [] fs).

(* the messages for streamed answers *)
Definition plabels_desc : desc := [(1, KMsg plabel_desc)].
Definition plabels_of (fs : list (Z * fval)) : plabels := mkPLabels (map plabel_of (msgs 1 fs)) (others plabels_desc [] fs).
(* UNKNOWN = 0, XOR = 1 *)
Definition encoding_named (z : Z) : encoding := if z =? 1 then XOR else UNKNOWN.
Definition pchunk_desc : desc := [(1, KNum); (2, KNum); (3, KNum); (4, KData)].
Definition pchunk_of (fs : list (Z * fval)) : pchunk :=
  mkPChunk (int64 1 fs) (int64 2 fs) (last (map encoding_named (filter is_bit (map int32 (nums 3 fs)))) UNKNOWN) (last (blocks 4 fs) [])
    (others pchunk_desc [(3, is_bit)] fs).
Definition cseries_desc : desc := [(1, KMsg plabel_desc); (2, KMsg pchunk_desc)].
Definition cseries_of (fs : list (Z * fval)) : cseries :=
  mkCSeries (map plabel_of (msgs 1 fs)) (map pchunk_of (msgs 2 fs)) (others cseries_desc [] fs).
Definition cresponse_desc : desc := [(1, KMsg cseries_desc); (2, KNum)].
Definition cresponse_of (fs : list (Z * fval)) : cresponse :=
  mkCResp (map cseries_of (msgs 1 fs)) (int64 2 fs) (others cresponse_desc [] fs).
