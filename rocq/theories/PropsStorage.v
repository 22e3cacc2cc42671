(* Properties C09-C13: the time point codec and the point stores. *)
From Verif Require Import Rust Prog Gorilla GorillaSpec Storage StorageSpec StorageProofs.

(** C09 *)
Theorem C09_codec_round_trip : forall ts v, 0 <= ts < 2 ^ 64 -> 0 <= v < 2 ^ 64 ->
  length (encode_time_point ts v) = 16%nat /\
  decode_time_point (encode_time_point ts v) = Ok (mkTp ts v).
Proof. intros ts v H1 H2. exact (conj (encode_len ts v) (decode_encode ts v H1 H2)). Qed.
Print Assumptions C09_codec_round_trip.
Theorem C09_codec_total : forall raw, Forall is_byte raw ->
  (length raw = 16%nat -> exists p, decode_time_point raw = Ok p /\ tp_ok p /\
     encode_time_point (tp_ts p) (tp_val p) = raw) /\
  (length raw <> 16%nat -> decode_time_point raw = Err InternalErr).
Proof. intros raw H. exact (conj (encode_decode raw H) (decode_other raw)). Qed.
Print Assumptions C09_codec_total.
(* a NaN with a payload, and the largest timestamp *)
Example C09_case :
  encode_time_point 18446744073709551615 9221120237041090561 =
    [255; 255; 255; 255; 255; 255; 255; 255; 127; 248; 0; 0; 0; 0; 0; 1] /\
  decode_time_point [0; 0; 0; 0; 0; 0; 1; 2; 127; 248; 0; 0; 0; 0; 0; 1] = Ok (mkTp 258 9221120237041090561).
Proof. vm_compute. split; reflexivity. Qed.

(** C10 *)
Theorem C10_sled_read_exact : forall bs h id s e,
  bs_contract bs -> Forall app_ok h -> 0 <= id < 2 ^ 64 -> increasing (points_of id h) -> s <= e ->
  krun (read_time_series SledStorage bs id s e) (apply_apps SledStorage h []) =
    (read_spec (points_of id h) s e, apply_apps SledStorage h []).
Proof. exact sled_read_exact. Qed.
Print Assumptions C10_sled_read_exact.
(* nothing appended, or wholly outside: no assumption about order *)
Theorem C10_sled_read_outside : forall bs h id s e, Forall app_ok h -> 0 <= id < 2 ^ 64 ->
  let r := fst (krun (read_time_series SledStorage bs id s e) (apply_apps SledStorage h [])) in
  (points_of id h = [] -> r = Err NotFoundErr) /\
  (forall first mid last, points_of id h = first :: mid ->
     points_of id h = removelast (points_of id h) ++ [last] ->
     (e < tp_ts first \/ tp_ts last < s) -> r = Err (OutOfRangeErr (tp_ts first) (tp_ts last))).
Proof. exact sled_read_outside. Qed.
Print Assumptions C10_sled_read_outside.
Theorem C10_sled_append_frame : forall bs h id id' p s e,
  Forall app_ok h -> app_ok (id', p) -> 0 <= id < 2 ^ 64 -> id <> id' ->
  fst (krun (read_time_series SledStorage bs id s e) (apply_apps SledStorage (h ++ [(id', p)]) [])) =
  fst (krun (read_time_series SledStorage bs id s e) (apply_apps SledStorage h [])).
Proof. exact sled_append_frame. Qed.
Print Assumptions C10_sled_append_frame.
Theorem C10_sled_append_ok : forall h id p, Forall app_ok h -> app_ok (id, p) ->
  fst (krun (write_time_point SledStorage id (tp_ts p) (tp_val p)) (apply_apps SledStorage h [])) = Ok tt.
Proof. exact sled_append_ok. Qed.
Print Assumptions C10_sled_append_ok.
Example C10_case :
  let h := [(1, mkTp 10 7); (11, mkTp 3 1); (1, mkTp 20 8); (1, mkTp 35 9); (11, mkTp 2 2)] in
  bs_contract scan_bs /\ Forall app_ok h /\ increasing (points_of 1 h) /\
  fst (krun (read_time_series SledStorage scan_bs 1 15 40) (apply_apps SledStorage h [])) =
    Ok [mkTp 20 8; mkTp 35 9] /\
  fst (krun (read_time_series SledStorage scan_bs 1 21 34) (apply_apps SledStorage h [])) = Ok [].
Proof.
  split; [exact scan_contract|]. split; [repeat constructor; cbn; lia|].
  split; [cbn; repeat constructor; lia|]. vm_compute. split; reflexivity.
Qed.

(** C11 *)
Theorem C11_tikv_read_exact : forall ident bs h id s e,
  bs_contract bs -> Forall app_ok h -> 0 <= id < 2 ^ 64 -> s <= e ->
  let st := TiKvStorage ident in
  let kept := accepted (points_of id h) [] in
  increasing kept /\
  krun (read_time_series st bs id s e) (apply_apps st h []) = (read_spec kept s e, apply_apps st h []).
Proof. exact tikv_read_exact. Qed.
Print Assumptions C11_tikv_read_exact.
Theorem C11_tikv_write_gate : forall ident h id p, Forall app_ok h -> app_ok (id, p) ->
  let st := TiKvStorage ident in
  let kept := accepted (points_of id h) [] in
  let w := krun (write_time_point st id (tp_ts p) (tp_val p)) (apply_apps st h []) in
  ((forall q, In q kept -> tp_ts q < tp_ts p) -> fst w = Ok tt) /\
  ((exists q, In q kept /\ tp_ts p <= tp_ts q) -> w = (Err InternalErr, apply_apps st h [])).
Proof. exact tikv_write_gate. Qed.
Print Assumptions C11_tikv_write_gate.
Example C11_case :
  let h := [(1, mkTp 10 7); (2, mkTp 3 1); (1, mkTp 10 8); (1, mkTp 35 9); (1, mkTp 20 2)] in
  Forall app_ok h /\ accepted (points_of 1 h) [] = [mkTp 10 7; mkTp 35 9] /\
  fst (krun (read_time_series (TiKvStorage [9]) scan_bs 1 0 40) (apply_apps (TiKvStorage [9]) h [])) =
    Ok [mkTp 10 7; mkTp 35 9].
Proof. split; [repeat constructor; cbn; lia|]. vm_compute. split; reflexivity. Qed.

(** C12 *)
Theorem C12_sled_range : forall bs h id s e, bs_contract bs -> Forall app_ok h -> 0 <= id < 2 ^ 64 ->
  let pts := points_of id h in
  let r := fst (krun (read_time_series SledStorage bs id s e) (apply_apps SledStorage h [])) in
  increasing pts ->
  (exists p, In p pts /\ tp_ts p <= e) -> (exists p, In p pts /\ s <= tp_ts p) ->
  (s <= e -> r = Ok (within s e pts)) /\
  (e < s -> (exists p, In p pts /\ e < tp_ts p < s) -> r = Panic) /\
  (e < s -> ~ (exists p, In p pts /\ e < tp_ts p < s) -> r = Ok []).
Proof. exact sled_range. Qed.
Print Assumptions C12_sled_range.
Theorem C12_tikv_range : forall ident bs h id s e, bs_contract bs -> Forall app_ok h -> 0 <= id < 2 ^ 64 ->
  let st := TiKvStorage ident in
  let pts := accepted (points_of id h) [] in
  let r := fst (krun (read_time_series st bs id s e) (apply_apps st h [])) in
  (exists p, In p pts /\ tp_ts p <= e) -> (exists p, In p pts /\ s <= tp_ts p) ->
  (s <= e -> r = Ok (within s e pts)) /\
  (e < s -> (exists p, In p pts /\ e < tp_ts p < s) -> r = Panic) /\
  (e < s -> ~ (exists p, In p pts /\ e < tp_ts p < s) -> r = Ok []).
Proof. exact tikv_range. Qed.
Print Assumptions C12_tikv_range.
Example C12_case :
  let h := [(1, mkTp 10 7); (1, mkTp 20 8); (1, mkTp 35 9)] in
  fst (krun (read_time_series SledStorage scan_bs 1 30 15) (apply_apps SledStorage h [])) = Panic /\
  fst (krun (read_time_series SledStorage scan_bs 1 30 25) (apply_apps SledStorage h [])) = Ok [].
Proof. vm_compute. split; reflexivity. Qed.

(** C13 *)
Theorem C13_out_of_order_refuted : exists h id p, Forall app_ok h /\ In p (points_of id h) /\
  forall bs, ~ exists l, In p l /\
    fst (krun (read_time_series SledStorage bs id (tp_ts p) (tp_ts p)) (apply_apps SledStorage h [])) = Ok l.
Proof.
  exists [(1, mkTp 5 0); (1, mkTp 3 0)], 1, (mkTp 3 0).
  destruct (sled_out_of_order scan_bs) as (A & B & _). split; [exact A|]. split; [exact B|].
  intros bs (l & _ & E). pose proof (proj2 (proj2 (sled_out_of_order bs))) as C. cbn [tp_ts] in E.
  rewrite C in E. discriminate.
Qed.
Print Assumptions C13_out_of_order_refuted.
Theorem C13_duplicate_refuted : forall bs, bs_contract bs ->
  let h := [(1, mkTp 5 0); (1, mkTp 5 1)] in
  Forall app_ok h /\ length (within 5 5 (points_of 1 h)) = 2%nat /\
  exists p, fst (krun (read_time_series SledStorage bs 1 5 5) (apply_apps SledStorage h [])) = Ok [p].
Proof. exact sled_duplicates. Qed.
Print Assumptions C13_duplicate_refuted.
