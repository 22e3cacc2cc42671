(* Property C67: a database that keeps only its points, or only its series, in a TiKV, and the rest in sled. *)
From Coq Require Import ZifyBool ZifyNat Permutation String.
From Verif Require Import Rust StringProofs BitsProofs LabelProofs IndexProofs Prog Gorilla GorillaSpec Storage StorageSpec StorageProofs Labels Indexer IndexSpec
  Chunk ChunkSpec ChunkProofs ChunkFacts Utils DirSpec TiKvInit TiKvShared TiKvSpec TiKvProofs Db DbSpec MapProofs DbProofs DbHist DbFacts
  ReopenSpec ReopenProofs RangeSpec RangeProofs TiKvDb TiKvDbSpec TiKvDbRun TiKvDbChunk TiKvDbProofs TiKvDbMain MixDb MixSpec MixRun MixEngine MixPoints MixIndex
  PropsChunk PropsDb PropsReopen PropsTiKvDb.
Local Notation lab k v := (mkLabel (s2b k) (s2b v)).
Local Notation length := List.length.

(** C67 *)
(* the points in TiKV, the series in sled: as when both are in TiKV, what is written and read is the one table of all
   windows and all databases *)
Theorem C67_points_in_tikv : forall f s T L, env_ok f -> empty_dir f -> new_uuids f s -> holds_series (TiKvStorage []) s T -> (forall i, increasing (T i)) ->
  mlives_ok TiKvDry Sled (f_clock f) (f_ticks f) 0 (-1) L -> L <> [] ->
  exists l d t, shelf_lives (f_clock f) (f_ticks f) 0 T L = l ++ [d] /\ x_live L f s = Some (map snd (l ++ [d]), t) /\
    forall hs bs o q a b, hasher_ok hs -> bs_contract bs -> Forall lab_ok q -> unmixed hs (shelf_parts (fst d)) q a b ->
      exists r, xrun (t_query hs bs o q a b) t = Some (r, t) /\ comes_to (shelf_parts (fst d)) q a b r.
Proof. exact points_lives. Qed.
Print Assumptions C67_points_in_tikv.

(* the series in TiKV, the points in sled: the last process answers what it wrote itself, and nothing that processes
   before it wrote *)
Theorem C67_series_in_tikv : forall f s L, env_ok f -> empty_dir f -> new_uuids f s -> mlives_ok Sled TiKvDry (f_clock f) (f_ticks f) 0 (-1) L -> L <> [] ->
  exists l y t, begun (f_clock f) (f_ticks f) 0 L = l ++ [y] /\
    x_live L f s = Some (map (fun z => outcomes (lf_cf (snd z)) (fst z) (lf_ops (snd z))) (l ++ [y]), t) /\
    let P := parts (lf_cf (snd y)) (fst y) (lf_ops (snd y)) in
    forall hs bs o q a b, timely (written (lf_ops (snd y))) -> hasher_ok hs -> bs_contract bs -> Forall lab_ok q -> unmixed hs P q a b ->
      exists r, xrun (t_query hs bs o q a b) t = Some (r, t) /\ comes_to P q a b r.
Proof. exact index_lives. Qed.
Print Assumptions C67_series_in_tikv.

(* either way, a restarted database answers nothing *)
Theorem C67_restart_forgets : forall f s L cf, env_ok f -> empty_dir f -> new_uuids f s ->
  mlives_ok TiKvDry Sled (f_clock f) (f_ticks f) 0 (-1) (L ++ [mkLife cf []]) /\ no_points s \/
  mlives_ok Sled TiKvDry (f_clock f) (f_ticks f) 0 (-1) (L ++ [mkLife cf []]) ->
  exists rss t, x_live (L ++ [mkLife cf []]) f s = Some (rss, t) /\
    forall hs bs o q a b, hasher_ok hs -> bs_contract bs -> Forall lab_ok q -> xrun (t_query hs bs o q a b) t = Some (Ok [], t).
Proof.
  intros f s L cf He Hd Hu [[OK Hn]|OK]; [now apply points_forgotten|now apply index_forgotten].
Qed.
Print Assumptions C67_restart_forgets.

Definition pk_cf : config := ex_config TiKvDry Sled.
Definition sk_cf : config := ex_config Sled TiKvDry.
Definition mk_lives (cf : config) : list life := [mkLife cf tk_ops; mkLife cf tk_next; mkLife cf []].
Definition mk_ask (L : list life) (f : fworld) (s : kv) (q : list label) (a b : Z) :=
  match x_live L f s with
  | Some (rss, t) => option_map (fun r => (rss, fst r)) (xrun (t_query all_probe scan_bs no_timing q a b) t)
  | None => None
  end.
Lemma mk_ok st ix x : mlives_ok st ix (f_clock slow_fs) 0 0 (-1) (firstn x (mk_lives (ex_config st ix))).
Proof.
  assert (A: mlives_ok st ix (f_clock slow_fs) 0 0 (-1) (mk_lives (ex_config st ix))).
  { cbn [mk_lives mlives_ok lf_cf lf_ops].
    split; [reflexivity|]. split; [reflexivity|]. split; [exact tk_ascii|]. split; [vm_compute; reflexivity|].
    split. { split; [discriminate|]. split; [vm_compute; discriminate|]. split; [cbn; lia|]. split; [vm_compute; reflexivity|].
      split; [cbn [starts_ok tk_ops]; repeat split; vm_compute; reflexivity|]. split; [cbn [written tk_ops map app]; reqs_tac|]. cbn. lia. }
    split; [reflexivity|]. split; [reflexivity|]. split; [exact tk_ascii|]. split; [vm_compute; reflexivity|].
    split. { split; [discriminate|]. split; [vm_compute; discriminate|]. split; [cbn; lia|]. split; [vm_compute; reflexivity|].
      split; [exact I|]. split; [cbn [written tk_next map app]; reqs_tac|]. cbn. lia. }
    split; [reflexivity|]. split; [reflexivity|]. split; [exact tk_ascii|]. split; [vm_compute; reflexivity|].
    split; [|exact I]. split; [discriminate|]. split; [vm_compute; discriminate|]. split; [cbn; lia|]. split; [vm_compute; reflexivity|].
    split; [exact I|]. split; [constructor|]. cbn. lia. }
  destruct x as [|[|[|[|x]]]]; cbn [firstn mk_lives] in *; try exact A.
  - exact I.
  - destruct A as (A1 & A2 & A3 & A4 & A5 & A6). repeat (split; [assumption|]). exact I.
  - destruct A as (A1 & A2 & A3 & A4 & A5 & A6 & A7 & A8 & A9 & A10 & A11). repeat (split; [assumption|]). exact I.
Qed.

(* {job=c} is series 1 of the second window: with its points in TiKV it is answered with the point of
   {host=x, job=a}, series 1 of the first window; with its points in sled it is not *)
Example C67_case :
  env_ok slow_fs /\ empty_dir slow_fs /\ new_uuids slow_fs [] /\ no_points [] /\
  (forall x, mlives_ok TiKvDry Sled (f_clock slow_fs) 0 0 (-1) (firstn x (mk_lives pk_cf))) /\
  (forall x, mlives_ok Sled TiKvDry (f_clock slow_fs) 0 0 (-1) (firstn x (mk_lives sk_cf))) /\
  timely (written tk_ops) /\ timely (written tk_next) /\ (forall hs q a b, unmixed hs (parts sk_cf 1000 tk_ops) q a b) /\
  mk_ask (firstn 1 (mk_lives pk_cf)) slow_fs [] [lab "job" "c"] 1000 2000 = Some ([[Ok tt; Ok tt; Ok tt; Ok tt]], Ok [([lab "job" "c"], [mkTp 1010 7; mkTp 1150 8])]) /\
  mk_ask (firstn 1 (mk_lives sk_cf)) slow_fs [] [lab "job" "c"] 1000 2000 = Some ([[Ok tt; Ok tt; Ok tt; Ok tt]], Ok [([lab "job" "c"], [mkTp 1150 8])]) /\
  mk_ask (firstn 2 (mk_lives pk_cf)) slow_fs [] [lab "job" "d"] 1000 5000 =
    Some ([[Ok tt; Ok tt; Ok tt; Ok tt]; [Ok tt; Ok tt]], Ok [([lab "job" "d"], [mkTp 1010 7; mkTp 1150 8; mkTp 4050 10])]) /\
  mk_ask (firstn 2 (mk_lives sk_cf)) slow_fs [] [lab "job" "d"] 1000 5000 = Some ([[Ok tt; Ok tt; Ok tt; Ok tt]; [Ok tt; Ok tt]], Ok [([lab "job" "d"], [mkTp 4050 10])]) /\
  mk_ask (firstn 2 (mk_lives sk_cf)) slow_fs [] [lab "job" "b"] 1000 5000 = Some ([[Ok tt; Ok tt; Ok tt; Ok tt]; [Ok tt; Ok tt]], Ok [([lab "job" "b"], [mkTp 4051 11])]) /\
  mk_ask (mk_lives pk_cf) slow_fs [] [lab "job" "d"] 1000 5000 = Some ([[Ok tt; Ok tt; Ok tt; Ok tt]; [Ok tt; Ok tt]; []], Ok []) /\
  mk_ask (mk_lives sk_cf) slow_fs [] [lab "job" "d"] 1000 5000 = Some ([[Ok tt; Ok tt; Ok tt; Ok tt]; [Ok tt; Ok tt]; []], Ok []).
Proof.
  split; [exact slow_env|]. split; [split; reflexivity|]. split; [exact slow_uuids|]. split; [intros k _; reflexivity|].
  split; [exact (mk_ok TiKvDry Sled)|]. split; [exact (mk_ok Sled TiKvDry)|].
  split; [apply timely_check; [cbn [tk_ops written map app]; reqs_tac|vm_compute; reflexivity]|].
  split; [apply timely_check; [cbn [tk_next written map app]; reqs_tac|vm_compute; reflexivity]|].
  split; [intros hs q a b; apply unmixed_check; vm_compute; reflexivity|].
  repeat (split; [vm_compute; reflexivity|]). vm_compute. reflexivity.
Qed.

(* "an answered point was written with the labels it is answered with": false when the points are in TiKV *)
Theorem C67_own_points_refuted :
  exists f s cf ops q a b rss t r t' m pts p, env_ok f /\ empty_dir f /\ new_uuids f s /\ no_points s /\
    mlives_ok TiKvDry Sled (f_clock f) (f_ticks f) 0 (-1) [mkLife cf ops] /\
    Forall (fun rs => Forall (fun r => r = Ok tt) rs) rss /\ x_live [mkLife cf ops] f s = Some (rss, t) /\
    Forall lab_ok q /\ a <= b /\ xrun (t_query all_probe scan_bs no_timing q a b) t = Some (Ok r, t') /\
    In (m, pts) r /\ In p pts /\ ~ exists ls, In (ls, p) (written ops) /\ sort_labels ls = m.
Proof.
  exists slow_fs, [], pk_cf, tk_ops, [lab "job" "c"], 1000, 2000, [[Ok tt; Ok tt; Ok tt; Ok tt]]. eexists. exists [([lab "job" "c"], [mkTp 1010 7; mkTp 1150 8])].
  eexists. exists [lab "job" "c"], [mkTp 1010 7; mkTp 1150 8], (mkTp 1010 7).
  split; [exact slow_env|]. split; [split; reflexivity|]. split; [exact slow_uuids|]. split; [intros k _; reflexivity|]. split; [exact (mk_ok TiKvDry Sled 1)|].
  split; [repeat constructor|]. split; [apply (kept _ _ tk_t0); vm_compute; reflexivity|]. split; [labs_tac|]. split; [lia|].
  split; [apply (kept _ _ tk_t0); vm_compute; reflexivity|].
  split; [now left|]. split; [now left|]. intros (ls & H & E). cbn [written tk_ops map app In] in H.
  repeat (destruct H as [H|H]; [first [discriminate H|injection H as <-; vm_compute in E; discriminate E]|]). contradiction.
Qed.
Print Assumptions C67_own_points_refuted.
