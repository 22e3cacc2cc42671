(* Model of the messages of src/proto/types.rs and src/proto/remote.rs for streamed answers, which
   the server does not use: Labels, Chunk, ChunkedSeries and ChunkedReadResponse.  Simplifications
   as in Proto.v. *)
From Verif Require Import Rust Proto.

(* rt::read_singular_proto3_bytes_into: as for a string, without the check of the encoding *)
Definition read_data (wt : Z) (b : bytes) (s : bytes) : bytes * option bytes :=
  if wt =? WLen then
    match read_varint32 b with
    | None => (s, None)
    | Some (len, b1) =>
        match read_bytes len b1 with
        | None => ([], None)
        | Some (x, b2) => (x, Some b2)
        end
    end
  else (s, None).

(* src/proto/types.rs:723-729 Labels *)
Record plabels := mkPLabels { pls_labels : list plabel; pls_unk : unknowns }.
Definition plabels_new : plabels := mkPLabels [] [].
(* types.rs:778-799 *)
Definition plabels_field (short number wt : Z) (b : bytes) (m : plabels) : plabels * option bytes :=
  let '(mkPLabels l u) := m in
  if number =? 1 then let '(l', r) := read_repeated plabel_read plabel_new short wt b l in (mkPLabels l' u, r)
  else let '(u', r) := read_unknown_or_skip_group number wt b u in (mkPLabels l u', r).
Definition plabels_read : reader plabels := reads plabels_field.
(* types.rs:803-812, 814-825 *)
Definition plabels_size (m : plabels) : Z :=
  sum (map (fun x => message_size (plabel_size x)) (pls_labels m)) + unknowns_size (pls_unk m).
Definition plabels_write (m : plabels) : bytes :=
  concat (map (fun x => w_message 1 (plabel_size x) (plabel_write x)) (pls_labels m)) ++ write_unknowns (pls_unk m).

(* types.rs:1861-1877 Chunk_Encoding *)
Inductive encoding := UNKNOWN | XOR.
Definition encoding_value (t : encoding) : Z := match t with UNKNOWN => 0 | XOR => 1 end.
Definition encoding_from (z : Z) : option encoding :=
  if z =? 0 then Some UNKNOWN else if z =? 1 then Some XOR else None.
Definition not_unknown (t : encoding) : bool := match t with UNKNOWN => false | XOR => true end.
(* types.rs:1558-1568 Chunk *)
Record pchunk := mkPChunk { pc_min : Z; pc_max : Z; pc_type : encoding; pc_data : bytes; pc_unk : unknowns }.
Definition pchunk_new : pchunk := mkPChunk 0 0 UNKNOWN [] [].
(* types.rs:1654-1700; rt::read_proto3_enum_with_unknown_fields_into *)
Definition pchunk_field (short number wt : Z) (b : bytes) (m : pchunk) : pchunk * option bytes :=
  let '(mkPChunk lo hi t d u) := m in
  if number =? 1 then let '(lo', r) := read_int64 wt b lo in (mkPChunk lo' hi t d u, r)
  else if number =? 2 then let '(hi', r) := read_int64 wt b hi in (mkPChunk lo hi' t d u, r)
  else if number =? 3 then
    if wt =? WVarint then
      match read_int32 b with
      | None => (m, None)
      | Some (z, b') =>
          match encoding_from z with
          | Some t' => (mkPChunk lo hi t' d u, Some b')
          | None => (mkPChunk lo hi t d (u ++ [(3, UVarint (wrapu 64 z))]), Some b')
          end
      end
    else (m, None)
  else if number =? 4 then let '(d', r) := read_data wt b d in (mkPChunk lo hi t d' u, r)
  else let '(u', r) := read_unknown_or_skip_group number wt b u in (mkPChunk lo hi t d u', r).
Definition pchunk_read : reader pchunk := reads pchunk_field.
(* types.rs:1704-1729; rt::bytes_size counts as for a string *)
Definition pchunk_size (m : pchunk) : Z :=
  optz (negb (pc_min m =? 0)) (int64_size 1 (pc_min m)) + optz (negb (pc_max m =? 0)) (int64_size 2 (pc_max m))
  + optz (not_unknown (pc_type m)) (enum_size 3 (encoding_value (pc_type m)))
  + optz (nonempty (pc_data m)) (string_size 4 (pc_data m)) + unknowns_size (pc_unk m).
(* types.rs:1731-1750; write_bytes writes as for a string *)
Definition pchunk_write (m : pchunk) : bytes :=
  opt (negb (pc_min m =? 0)) (w_int64 1 (pc_min m)) ++ opt (negb (pc_max m =? 0)) (w_int64 2 (pc_max m))
  ++ opt (not_unknown (pc_type m)) (w_enum 3 (encoding_value (pc_type m)))
  ++ opt (nonempty (pc_data m)) (w_string 4 (pc_data m)) ++ write_unknowns (pc_unk m).

(* types.rs:1912-1920 ChunkedSeries *)
Record cseries := mkCSeries { cs_labels : list plabel; cs_chunks : list pchunk; cs_unk : unknowns }.
Definition cseries_new : cseries := mkCSeries [] [] [].
(* types.rs:1997-2021 *)
Definition cseries_field (short number wt : Z) (b : bytes) (m : cseries) : cseries * option bytes :=
  let '(mkCSeries l c u) := m in
  if number =? 1 then let '(l', r) := read_repeated plabel_read plabel_new short wt b l in (mkCSeries l' c u, r)
  else if number =? 2 then let '(c', r) := read_repeated pchunk_read pchunk_new short wt b c in (mkCSeries l c' u, r)
  else let '(u', r) := read_unknown_or_skip_group number wt b u in (mkCSeries l c u', r).
Definition cseries_read : reader cseries := reads cseries_field.
(* types.rs:2025-2038, 2040-2056 *)
Definition cseries_size (m : cseries) : Z :=
  sum (map (fun x => message_size (plabel_size x)) (cs_labels m))
  + sum (map (fun x => message_size (pchunk_size x)) (cs_chunks m)) + unknowns_size (cs_unk m).
Definition cseries_write (m : cseries) : bytes :=
  concat (map (fun x => w_message 1 (plabel_size x) (plabel_write x)) (cs_labels m))
  ++ concat (map (fun x => w_message 2 (pchunk_size x) (pchunk_write x)) (cs_chunks m)) ++ write_unknowns (cs_unk m).

(* src/proto/remote.rs:1244-1252 ChunkedReadResponse *)
Record cresponse := mkCResp { cr_series : list cseries; cr_index : Z; cr_unk : unknowns }.
Definition cresponse_new : cresponse := mkCResp [] 0 [].
(* remote.rs:1321-1355 *)
Definition cresponse_field (short number wt : Z) (b : bytes) (m : cresponse) : cresponse * option bytes :=
  let '(mkCResp l i u) := m in
  if number =? 1 then let '(l', r) := read_repeated cseries_read cseries_new short wt b l in (mkCResp l' i u, r)
  else if number =? 2 then let '(i', r) := read_int64 wt b i in (mkCResp l i' u, r)
  else let '(u', r) := read_unknown_or_skip_group number wt b u in (mkCResp l i u', r).
Definition cresponse_read : reader cresponse := reads cresponse_field.
(* remote.rs:1359-1375, 1377-1391 *)
Definition cresponse_size (m : cresponse) : Z :=
  sum (map (fun x => message_size (cseries_size x)) (cr_series m))
  + optz (negb (cr_index m =? 0)) (int64_size 2 (cr_index m)) + unknowns_size (cr_unk m).
Definition cresponse_write (m : cresponse) : bytes :=
  concat (map (fun x => w_message 1 (cseries_size x) (cseries_write x)) (cr_series m))
  ++ opt (negb (cr_index m =? 0)) (w_int64 2 (cr_index m)) ++ write_unknowns (cr_unk m).
