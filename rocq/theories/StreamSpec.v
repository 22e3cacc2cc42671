(* Specification vocabulary for the messages of streamed answers: those Rust can hold. *)
From Verif Require Import Rust Storage StorageSpec Proto ProtoSpec Stream.

Definition plabels_ok (m : plabels) : Prop := Forall plabel_ok (pls_labels m) /\ unk_ok 1 (pls_unk m).
(* the data are any bytes *)
Definition pchunk_ok (m : pchunk) : Prop := i64 (pc_min m) /\ i64 (pc_max m) /\ Forall is_byte (pc_data m) /\ unk_ok 4 (pc_unk m).
Definition cseries_ok (m : cseries) : Prop := Forall plabel_ok (cs_labels m) /\ Forall pchunk_ok (cs_chunks m) /\ unk_ok 2 (cs_unk m).
Definition cresponse_ok (m : cresponse) : Prop := Forall cseries_ok (cr_series m) /\ i64 (cr_index m) /\ unk_ok 2 (cr_unk m).
