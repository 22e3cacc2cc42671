(* Property C64: a database whose points and series are both kept in one TiKV. *)
From Coq Require Import ZifyBool ZifyNat Permutation String.
From Verif Require Import Rust StringProofs BitsProofs LabelProofs IndexProofs Prog Gorilla GorillaSpec Storage StorageSpec StorageProofs Labels Indexer IndexSpec
  Chunk ChunkSpec ChunkProofs ChunkFacts Utils DirSpec TiKvInit TiKvShared TiKvSpec TiKvProofs Db DbSpec MapProofs DbProofs DbHist DbFacts
  ReopenSpec ReopenProofs RangeSpec RangeProofs TiKvDb TiKvDbSpec TiKvDbRun TiKvDbChunk TiKvDbProofs TiKvDbMain PropsChunk PropsDb PropsReopen.
Local Notation lab k v := (mkLabel (s2b k) (s2b v)).
Local Notation length := List.length.

(** C64 *)
(* process after process on one directory over one TiKV: what each operation returned, and what the
   last process answers, is what the shelf says *)
Theorem C64_shared_table : forall f s L, env_ok f -> empty_dir f -> new_uuids f s -> no_points s ->
  tlives_ok (f_clock f) (f_ticks f) 0 (-1) L -> L <> [] ->
  exists l d t, shelf_lives (f_clock f) (f_ticks f) 0 no_table L = l ++ [d] /\ t_live L f s = Some (map snd (l ++ [d]), t) /\
    forall hs bs o q a b, hasher_ok hs -> bs_contract bs -> Forall lab_ok q -> unmixed hs (shelf_parts (fst d)) q a b ->
      exists r, trun (t_query hs bs o q a b) t = Some (r, t) /\ comes_to (shelf_parts (fst d)) q a b r.
Proof.
  intros f s L He Hd Hu Hn OK NE.
  destruct (tikv_lives f s no_table L He Hd Hu (no_points_series s Hn)) as (l & d & t & E & R & _ & A); [intros i; constructor|exact OK|exact NE|].
  exists l, d, t. auto.
Qed.
Print Assumptions C64_shared_table.

(* a second database, in another directory: it finds the points of the first *)
Theorem C64_next_database : forall f s L f' L', env_ok f -> empty_dir f -> new_uuids f s -> no_points s ->
  tlives_ok (f_clock f) (f_ticks f) 0 (-1) L -> L <> [] ->
  exists l d t, shelf_lives (f_clock f) (f_ticks f) 0 no_table L = l ++ [d] /\ t_live L f s = Some (map snd (l ++ [d]), t) /\
    (env_ok f' -> empty_dir f' -> new_uuids f' (t_kv t) -> tlives_ok (f_clock f') (f_ticks f') 0 (-1) L' -> L' <> [] ->
     exists l' d' t', shelf_lives (f_clock f') (f_ticks f') 0 (sh_tab (fst d)) L' = l' ++ [d'] /\ t_live L' f' (t_kv t) = Some (map snd (l' ++ [d']), t') /\
       forall hs bs o q a b, hasher_ok hs -> bs_contract bs -> Forall lab_ok q -> unmixed hs (shelf_parts (fst d')) q a b ->
         exists r, trun (t_query hs bs o q a b) t' = Some (r, t') /\ comes_to (shelf_parts (fst d')) q a b r).
Proof.
  intros f s L f' L' He Hd Hu Hn OK NE.
  destruct (tikv_lives f s no_table L He Hd Hu (no_points_series s Hn)) as (l & d & t & E & R & (cf & start & n & Run) & _); [intros i; constructor|exact OK|exact NE|].
  exists l, d, t. split; [exact E|]. split; [exact R|]. intros He' Hd' Hu' OK' NE'. destruct (disk_running _ _ _ _ _ Run) as [D _].
  destruct (tikv_lives f' (t_kv t) (sh_tab (fst d)) L' He' Hd' Hu' (dk_st _ _ _ _ _ D) (dk_inc _ _ _ _ _ D) OK' NE') as (l' & d' & t' & E' & R' & _ & A').
  exists l', d', t'. auto.
Qed.
Print Assumptions C64_next_database.

(* as long as the process keeps running and its first window lasts, the database answers what was written *)
Theorem C64_first_window : forall cf f s ops, env_ok f -> empty_dir f -> new_uuids f s -> no_points s ->
  let start := f_clock f (f_ticks f) in
  tlives_ok (f_clock f) (f_ticks f) 0 (-1) [mkLife cf ops] -> (forall x, ~ In (OpSwap x) ops) ->
  exists t, t_live [mkLife cf ops] f s = Some ([outcomes cf start ops], t) /\
    forall hs bs o q a b, hasher_ok hs -> bs_contract bs -> Forall lab_ok q -> unmixed hs (parts cf start ops) q a b ->
      exists r, trun (t_query hs bs o q a b) t = Some (r, t) /\ comes_to (parts cf start ops) q a b r.
Proof.
  intros cf f s ops He Hd Hu Hn start OK NS.
  destruct (tikv_lives f s no_table [mkLife cf ops] He Hd Hu (no_points_series s Hn)) as (l & d & t & E & R & _ & A); [intros i; constructor|exact OK|discriminate|].
  cbn [shelf_lives lf_cf lf_ops] in E. rewrite Nat.add_0_r in E. fold start in E. rewrite <- E in R. cbn [map] in R.
  apply (app_inj_tail [] l) in E as [_ <-].
  destruct OK as (H1 & _). cbn [lf_cf] in H1.
  assert (SW: swaps ops = 0%nat).
  { clear - NS. induction ops as [|o ops IH]; [reflexivity|]. destruct o; cbn [swaps]; [apply IH; intros x Hx; apply (NS x); now right..|].
    exfalso. eapply NS. now left. }
  destruct (one_life cf start ops H1 SW) as [P1 P2]. rewrite P1 in A. rewrite P2 in R. exists t. split; [exact R|exact A].
Qed.
Print Assumptions C64_first_window.

(* a restarted database answers nothing, whatever was written before *)
Theorem C64_restart_forgets : forall f s L cf, env_ok f -> empty_dir f -> new_uuids f s -> no_points s ->
  tlives_ok (f_clock f) (f_ticks f) 0 (-1) (L ++ [mkLife cf []]) ->
  exists rss t, t_live (L ++ [mkLife cf []]) f s = Some (rss, t) /\
    forall hs bs o q a b, hasher_ok hs -> bs_contract bs -> Forall lab_ok q -> trun (t_query hs bs o q a b) t = Some (Ok [], t).
Proof. exact tikv_forgets. Qed.
Print Assumptions C64_restart_forgets.

(* slow_fs reads the clock at 1000, 2000, 3000, ... *)
Definition tk_cf : config := ex_config TiKvDry TiKvDry.
Definition tk_ops : list dop :=
  [OpPoint [lab "job" "a"; lab "host" "x"] (mkTp 1010 7); OpBatch [lab "job" "b"] [mkTp 1011 1; mkTp 1050 2]; OpSwap 1101;
   OpPoint [lab "job" "c"] (mkTp 1150 8)].
Definition tk_next : list dop :=
  [OpPoint [lab "job" "d"] (mkTp 4050 10); OpPoint [lab "job" "b"] (mkTp 4051 11)].
Definition tk_lives : list life := [mkLife tk_cf tk_ops; mkLife tk_cf tk_next].
Definition tk_ask (L : list life) (f : fworld) (s : kv) (q : list label) (a b : Z) :=
  match t_live L f s with
  | Some (rss, t) => option_map (fun r => (rss, fst r)) (trun (t_query all_probe scan_bs no_timing q a b) t)
  | None => None
  end.
Lemma slow_env : env_ok slow_fs.
Proof.
  split; [intros l; symmetry; apply Permutation_rev|]. split; [intros n; apply repeat_length|].
  split; [|reflexivity]. intros n. unfold u64, slow_fs. cbn [f_clock]. lia.
Qed.
Lemma slow_uuids : new_uuids slow_fs [].
Proof.
  split; [|reflexivity]. intros i j H. cbn [slow_fs f_uuid] in H. assert (Z.of_nat i = Z.of_nat j) by (change (hd 0 (repeat (Z.of_nat i) 16) = Z.of_nat j); now rewrite H). lia.
Qed.
Lemma tk_ascii : ascii (cf_base tk_cf).
Proof. unfold ascii. cbn. repeat constructor; lia. Qed.
Lemma tk_ok x : tlives_ok (f_clock slow_fs) 0 0 (-1) (firstn x (tk_lives ++ [mkLife tk_cf []])).
Proof.
  assert (A: tlives_ok (f_clock slow_fs) 0 0 (-1) (tk_lives ++ [mkLife tk_cf []])).
  { cbn [app tk_lives tlives_ok lf_cf lf_ops].
    split; [reflexivity|]. split; [reflexivity|]. split; [exact tk_ascii|]. split; [vm_compute; reflexivity|].
    split. { split; [discriminate|]. split; [vm_compute; discriminate|]. split; [cbn; lia|]. split; [vm_compute; reflexivity|].
      split; [cbn [starts_ok tk_ops]; repeat split; vm_compute; reflexivity|]. split; [cbn [written tk_ops map app]; reqs_tac|]. cbn. lia. }
    split; [reflexivity|]. split; [reflexivity|]. split; [exact tk_ascii|]. split; [vm_compute; reflexivity|].
    split. { split; [discriminate|]. split; [vm_compute; discriminate|]. split; [cbn; lia|]. split; [vm_compute; reflexivity|].
      split; [exact I|]. split; [cbn [written tk_next map app]; reqs_tac|]. cbn. lia. }
    split; [reflexivity|]. split; [reflexivity|]. split; [exact tk_ascii|]. split; [vm_compute; reflexivity|].
    split; [|exact I]. split; [discriminate|]. split; [vm_compute; discriminate|]. split; [cbn; lia|]. split; [vm_compute; reflexivity|].
    split; [exact I|]. split; [constructor|]. cbn. lia. }
  destruct x as [|[|[|[|x]]]]; cbn [firstn tk_lives app] in *; try exact A.
  - exact I.
  - destruct A as (A1 & A2 & A3 & A4 & A5 & A6). repeat (split; [assumption|]). exact I.
  - destruct A as (A1 & A2 & A3 & A4 & A5 & A6 & A7 & A8 & A9 & A10 & A11). repeat (split; [assumption|]). exact I.
Qed.
(* {job=c} is series 1 of the second window: it is answered with the point of {host=x, job=a}, series 1
   of the first window; and {job=a} has its point from the second window *)
Example C64_case :
  env_ok slow_fs /\ empty_dir slow_fs /\ new_uuids slow_fs [] /\ no_points [] /\ tlives_ok (f_clock slow_fs) 0 0 (-1) tk_lives /\
  (forall hs q a b, unmixed hs (shelf_parts (fst (last (shelf_lives (f_clock slow_fs) 0 0 no_table tk_lives) (open_shelf tk_cf 0 no_table, [])))) q a b) /\
  tk_ask [mkLife tk_cf tk_ops] slow_fs [] [lab "job" "c"] 1000 2000 = Some ([[Ok tt; Ok tt; Ok tt; Ok tt]], Ok [([lab "job" "c"], [mkTp 1010 7; mkTp 1150 8])]) /\
  tk_ask [mkLife tk_cf tk_ops] slow_fs [] [lab "job" "a"] 1000 2000 =
    Some ([[Ok tt; Ok tt; Ok tt; Ok tt]], Ok [([lab "host" "x"; lab "job" "a"], [mkTp 1010 7; mkTp 1150 8])]) /\
  tk_ask tk_lives slow_fs [] [lab "job" "a"] 1000 5000 = Some ([[Ok tt; Ok tt; Ok tt; Ok tt]; [Ok tt; Ok tt]], Ok []) /\
  tk_ask tk_lives slow_fs [] [lab "job" "d"] 1000 5000 =
    Some ([[Ok tt; Ok tt; Ok tt; Ok tt]; [Ok tt; Ok tt]], Ok [([lab "job" "d"], [mkTp 1010 7; mkTp 1150 8; mkTp 4050 10])]) /\
  tk_ask (tk_lives ++ [mkLife tk_cf []]) slow_fs [] [lab "job" "d"] 1000 5000 =
    Some ([[Ok tt; Ok tt; Ok tt; Ok tt]; [Ok tt; Ok tt]; []], Ok []).
Proof.
  split; [exact slow_env|]. split; [split; reflexivity|]. split; [exact slow_uuids|]. split; [intros k _; reflexivity|]. split; [exact (tk_ok 2)|].
  split. { intros hs q a b. apply unmixed_check. vm_compute. reflexivity. }
  split; [vm_compute; reflexivity|]. split; [vm_compute; reflexivity|]. split; [vm_compute; reflexivity|]. split; vm_compute; reflexivity.
Qed.

Lemma kept {A W} (x : option (A * W)) a d : option_map fst x = Some a -> x = Some (a, match x with Some (_, w) => w | None => d end).
Proof. destruct x as [[b w]|]; cbn; [|discriminate]. intros H. now injection H as ->. Qed.
Definition tk_t0 : tworld := mkT (closed_db slow_fs) [].

(* "an answered point was written with the labels it is answered with": false within one process *)
Theorem C64_own_points_refuted :
  exists f s cf ops q a b rss t r t' m pts p, env_ok f /\ empty_dir f /\ new_uuids f s /\ no_points s /\ tlives_ok (f_clock f) (f_ticks f) 0 (-1) [mkLife cf ops] /\
    Forall (fun rs => Forall (fun r => r = Ok tt) rs) rss /\ t_live [mkLife cf ops] f s = Some (rss, t) /\
    Forall lab_ok q /\ a <= b /\ trun (t_query all_probe scan_bs no_timing q a b) t = Some (Ok r, t') /\
    In (m, pts) r /\ In p pts /\ ~ exists ls, In (ls, p) (written ops) /\ sort_labels ls = m.
Proof.
  exists slow_fs, [], tk_cf, tk_ops, [lab "job" "c"], 1000, 2000, [[Ok tt; Ok tt; Ok tt; Ok tt]]. eexists. exists [([lab "job" "c"], [mkTp 1010 7; mkTp 1150 8])].
  eexists. exists [lab "job" "c"], [mkTp 1010 7; mkTp 1150 8], (mkTp 1010 7).
  split; [exact slow_env|]. split; [split; reflexivity|]. split; [exact slow_uuids|]. split; [intros k _; reflexivity|]. split; [exact (tk_ok 1)|].
  split; [repeat constructor|]. split; [apply (kept _ _ tk_t0); vm_compute; reflexivity|]. split; [labs_tac|]. split; [lia|].
  split; [apply (kept _ _ tk_t0); vm_compute; reflexivity|].
  split; [now left|]. split; [now left|]. intros (ls & H & E). cbn [written tk_ops map app In] in H.
  repeat (destruct H as [H|H]; [first [discriminate H|injection H as <-; vm_compute in E; discriminate E]|]). contradiction.
Qed.
Print Assumptions C64_own_points_refuted.

(* and false across databases: one that never wrote a point at 1010 answers one, from the first
   database over the same TiKV *)
Definition other_fs : fworld :=
  mkF None [] (fun l => l) (fun n => 1000 + 1000 * Z.of_nat (Nat.min n 500)) 0 (fun n => repeat (1000 + Z.of_nat n) 16) 0 [].
Definition tk_t1 : tworld := match t_live [mkLife tk_cf tk_ops] slow_fs [] with Some (_, t) => t | None => tk_t0 end.
Definition tk_other : list life := [mkLife tk_cf [OpPoint [lab "rack" "7"] (mkTp 1060 5); OpPoint [lab "rack" "7"] (mkTp 1070 6); OpPoint [lab "rack" "8"] (mkTp 1080 5)]].
Lemma kv_get_in s k v : kv_get s k = Some v -> In k (map fst s).
Proof.
  induction s as [|[x y] s IH]; cbn [kv_get map fst]; intros H; [discriminate|]. destruct (bytes_eqb x k) eqn:E; [left; now apply bytes_eqb_spec|right; now apply IH].
Qed.
Lemma other_uuids : new_uuids other_fs (t_kv tk_t1).
Proof.
  assert (G: forall i j, repeat (1000 + Z.of_nat i) 16 = repeat (1000 + Z.of_nat j) 16 -> i = j).
  { intros i j H. assert (1000 + Z.of_nat i = 1000 + Z.of_nat j) by (change (hd 0 (repeat (1000 + Z.of_nat i) 16) = 1000 + Z.of_nat j); now rewrite H). lia. }
  split; [exact G|]. intros n r. destruct (kv_get (t_kv tk_t1) (f_uuid other_fs n ++ r)) as [v|] eqn:E; [|reflexivity]. exfalso.
  apply kv_get_in in E. assert (B: forallb (fun k => hd 0 k <? 1000) (map fst (t_kv tk_t1)) = true) by (vm_compute; reflexivity).
  rewrite forallb_forall in B. specialize (B _ E). change (hd 0 (f_uuid other_fs n ++ r)) with (1000 + Z.of_nat n) in B. lia.
Qed.
Example C64_next_case :
  t_live [mkLife tk_cf tk_ops] slow_fs [] = Some ([[Ok tt; Ok tt; Ok tt; Ok tt]], tk_t1) /\
  env_ok other_fs /\ empty_dir other_fs /\ new_uuids other_fs (t_kv tk_t1) /\ tlives_ok (f_clock other_fs) 0 0 (-1) tk_other /\
  tk_ask tk_other other_fs (t_kv tk_t1) [lab "rack" "7"] 1000 2000 =
    Some ([[Err InternalErr; Ok tt; Ok tt]], Ok [([lab "rack" "7"], [mkTp 1010 7; mkTp 1150 8])]).
Proof.
  split; [apply (kept _ _ tk_t0); vm_compute; reflexivity|].
  split. { split; [intros l; apply Permutation_refl|]. split; [intros n; apply repeat_length|]. split; [|reflexivity]. intros n. unfold u64, other_fs. cbn [f_clock]. lia. }
  split; [split; reflexivity|]. split; [exact other_uuids|].
  split; [|vm_compute; reflexivity]. cbn [tk_other tlives_ok lf_cf lf_ops].
  split; [reflexivity|]. split; [reflexivity|]. split; [exact tk_ascii|]. split; [vm_compute; reflexivity|]. split; [|exact I].
  split; [discriminate|]. split; [vm_compute; discriminate|]. split; [cbn; lia|]. split; [vm_compute; reflexivity|].
  split; [exact I|]. split; [cbn [written map app]; reqs_tac|]. cbn. lia.
Qed.
(* "an acknowledged point is answered until the process stops": false in the second database.  Its first point
   is refused, because series 1 already has a later point, and the next one is taken and lost *)
Theorem C64_acknowledged_refuted :
  exists f cf ops rss t f' ops' rs t' i ls p r w, env_ok f /\ empty_dir f /\ new_uuids f [] /\ tlives_ok (f_clock f) (f_ticks f) 0 (-1) [mkLife cf ops] /\
    t_live [mkLife cf ops] f [] = Some (rss, t) /\
    env_ok f' /\ empty_dir f' /\ new_uuids f' (t_kv t) /\ tlives_ok (f_clock f') (f_ticks f') 0 (-1) [mkLife cf ops'] /\ timely (written ops') /\
    t_live [mkLife cf ops'] f' (t_kv t) = Some ([rs], t') /\ nth_error ops' i = Some (OpPoint ls p) /\ nth_error rs i = Some (Ok tt) /\
    trun (t_query all_probe scan_bs no_timing ls (tp_ts p - 1000) (tp_ts p + 1000)) t' = Some (Ok r, w) /\
    forall m pts, In (m, pts) r -> ~ In p pts.
Proof.
  exists slow_fs, tk_cf, tk_ops, [[Ok tt; Ok tt; Ok tt; Ok tt]], tk_t1, other_fs, (lf_ops (hd (mkLife tk_cf []) tk_other)), [Err InternalErr; Ok tt; Ok tt]. eexists.
  exists 1%nat, [lab "rack" "7"], (mkTp 1070 6), [([lab "rack" "7"], [mkTp 1010 7; mkTp 1150 8])]. eexists.
  destruct C64_next_case as (N1 & N2 & N3 & N4 & N5 & _).
  split; [exact slow_env|]. split; [split; reflexivity|]. split; [exact slow_uuids|]. split; [exact (tk_ok 1)|]. split; [exact N1|].
  split; [exact N2|]. split; [exact N3|]. split; [exact N4|]. split; [exact N5|].
  split. { apply timely_check; [cbn [tk_other hd lf_ops written map app]; reqs_tac|vm_compute; reflexivity]. }
  split; [apply (kept _ _ tk_t0); vm_compute; reflexivity|]. split; [reflexivity|]. split; [reflexivity|].
  split; [apply (kept _ _ tk_t0); vm_compute; reflexivity|].
  intros m pts [E|[]] H. injection E as <- <-. destruct H as [H|[H|[]]]; discriminate H.
Qed.
Print Assumptions C64_acknowledged_refuted.
Example C64_first_case : let ops := firstn 2 tk_ops in
  tlives_ok (f_clock slow_fs) 0 0 (-1) [mkLife tk_cf ops] /\ (forall x, ~ In (OpSwap x) ops) /\ (forall hs q a b, unmixed hs (parts tk_cf 1000 ops) q a b) /\
  tk_ask [mkLife tk_cf ops] slow_fs [] [lab "job" "b"] 1000 2000 = Some ([[Ok tt; Ok tt]], Ok [([lab "job" "b"], [mkTp 1011 1; mkTp 1050 2])]).
Proof.
  cbv zeta. split.
  { cbn [firstn tk_ops tlives_ok lf_cf lf_ops]. split; [reflexivity|]. split; [reflexivity|]. split; [exact tk_ascii|]. split; [vm_compute; reflexivity|]. split; [|exact I].
    split; [discriminate|]. split; [vm_compute; discriminate|]. split; [cbn; lia|]. split; [vm_compute; reflexivity|].
    split; [exact I|]. split; [cbn [written map app]; reqs_tac|]. cbn. lia. }
  split; [intros x [H|[H|[]]]; discriminate H|]. split; [intros hs q a b; apply unmixed_check; vm_compute; reflexivity|]. vm_compute. reflexivity.
Qed.
