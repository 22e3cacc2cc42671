(* Property C71: several databases at once over one TiKV. *)
From Coq Require Import ZifyBool ZifyNat Permutation String Sorted.
From Verif Require Import Rust StringProofs BitsProofs LabelProofs IndexProofs Prog Gorilla GorillaSpec Storage StorageSpec StorageProofs Labels Indexer IndexSpec
  Chunk ChunkSpec ChunkProofs ChunkFacts Utils DirSpec TiKvInit TiKvShared TiKvSpec TiKvProofs Db DbSpec MapProofs DbProofs DbHist DbFacts
  ReopenSpec ReopenProofs RangeSpec RangeProofs TiKvDb TiKvDbSpec TiKvDbRun TiKvDbChunk TiKvDbProofs TiKvDbMain Cluster ClusterSpec ClusterProofs ClusterFacts
  PropsChunk PropsDb PropsReopen PropsTiKvDb.
Local Notation lab k v := (mkLabel (s2b k) (s2b v)).
Local Notation length := List.length.

(** C71 *)
(* processes start on directories and make operations, in any order: what each act returned, and what each running
   process answers, is what the seats with the one table say; a query changes nothing *)
Theorem C71_cluster : forall fs s l X T rs, Forall env_ok fs -> Forall empty_dir fs -> own_uuids fs -> unknown fs s -> no_points s ->
  acts_ok (map seat_of fs) no_table l -> Z.of_nat (length (asked_of l)) < 2 ^ 64 - 1 -> seats_run (map seat_of fs) no_table l = (X, T, rs) ->
  exists C, cl_run l (nobody fs s) = Some (rs, C) /\
    forall i x cf d, nth_error X i = Some x -> se_db x = Some (cf, d) ->
    forall hs bs o q a b, hasher_ok hs -> bs_contract bs -> Forall lab_ok q -> unmixed hs (shelf_parts (with_table d T)) q a b ->
      exists r, run clhandler (at_dir i (t_query hs bs o q a b)) C = Some (r, C) /\ comes_to (shelf_parts (with_table d T)) q a b r.
Proof.
  intros fs s l X T rs H1 H2 H3 H4 H5 H6 H7 E. pose proof (cluster_runs fs s l H1 H2 H3 H4 H5 H6 H7) as K. rewrite E in K. exact K.
Qed.
Print Assumptions C71_cluster.
(* a point answered by one of them was written by one of them, and the labels are of those its own process was asked to write *)
Theorem C71_sound : forall fs l X T rs i x cf d q a b r m pts p, acts_ok (map seat_of fs) no_table l -> seats_run (map seat_of fs) no_table l = (X, T, rs) ->
  nth_error X i = Some x -> se_db x = Some (cf, d) -> comes_to (shelf_parts (with_table d T)) q a b (Ok r) -> In (m, pts) r -> In p pts ->
  a <= tp_ts p <= b /\ (exists j ls, In (j, (ls, p)) (asked_of l)) /\ (exists ls p', In (ls, p') (since i l []) /\ sort_labels ls = m).
Proof. exact cluster_sound. Qed.
Print Assumptions C71_sound.
(* a point that was taken and is later than all points anyone was asked to write before is answered, by the process that took
   it, to a query for its labels over a period with all points in it *)
Theorem C71_newest : forall fs l1 i ls p l2 X T rs x cf d q a b r, let l := l1 ++ (i, Run (OpPoint ls p)) :: l2 in
  acts_ok (map seat_of fs) no_table l -> seats_run (map seat_of fs) no_table l = (X, T, rs) ->
  nth_error rs (length l1) = Some (Ok tt) -> (forall cf', ~ In (i, Start cf') l2) -> (forall j y, In (j, y) (asked_of l1) -> tp_ts (snd y) < tp_ts p) ->
  nth_error X i = Some x -> se_db x = Some (cf, d) ->
  q <> [] -> (forall k, In k q -> In k ls) -> (forall j y, In (j, y) (asked_of l) -> a <= tp_ts (snd y) <= b) ->
  comes_to (shelf_parts (with_table d T)) q a b (Ok r) -> exists pts, In (sort_labels ls, pts) r /\ In p pts.
Proof. exact cluster_newest. Qed.
Print Assumptions C71_newest.

(* two machines with the same clock; the uuids drawn on one are even, on the other odd *)
Definition cl_fs (k : nat) : fworld :=
  mkF None [] (fun l => l) (fun n => 1000 + 1000 * Z.of_nat (Nat.min n 500)) 0 (fun n => repeat (Z.of_nat (2 * n + k)) 16) 0 [].
Definition cl_two : list fworld := [cl_fs 0; cl_fs 1].
Definition cl_acts : list (nat * act) :=
  [(0%nat, Start tk_cf); (1%nat, Start tk_cf); (0%nat, Run (OpPoint [lab "job" "a"] (mkTp 1010 7))); (1%nat, Run (OpPoint [lab "rack" "7"] (mkTp 1020 5)));
   (0%nat, Run (OpPoint [lab "job" "a"] (mkTp 1030 8))); (1%nat, Run (OpPoint [lab "rack" "7"] (mkTp 1025 6)))].
Definition cl_rest : list (nat * act) :=
  [(0%nat, Run (OpSwap 1101)); (1%nat, Run (OpBatch [lab "rack" "8"] [mkTp 1040 1; mkTp 1050 2])); (0%nat, Start tk_cf);
              (0%nat, Run (OpPoint [lab "job" "b"] (mkTp 4010 9)))].
Definition cl_more : list (nat * act) := cl_acts ++ cl_rest.
Definition cl_none : cluster := nobody cl_two [].
Definition cl_after (l : list (nat * act)) : cluster := match cl_run l cl_none with Some (_, C) => C | None => cl_none end.
Definition cl_ask (i : nat) (q : list label) (a b : Z) (C : cluster) := option_map fst (run clhandler (at_dir i (t_query all_probe scan_bs no_timing q a b)) C).
Lemma cl_env : Forall env_ok cl_two.
Proof.
  assert (G: forall k, env_ok (cl_fs k)).
  { intros k. split; [intros l; apply Permutation_refl|]. split; [intros n; apply repeat_length|]. split; [|reflexivity]. intros n. unfold u64, cl_fs. cbn [f_clock]. lia. }
  repeat constructor; apply G.
Qed.
Lemma cl_uuids : own_uuids cl_two.
Proof.
  assert (G: forall a b m k, repeat (Z.of_nat (2 * m + a)) 16 = repeat (Z.of_nat (2 * k + b)) 16 -> (2 * m + a = 2 * k + b)%nat).
  { intros a b m k H. assert (Z.of_nat (2 * m + a) = Z.of_nat (2 * k + b)) by (change (hd 0 (repeat (Z.of_nat (2 * m + a)) 16) = Z.of_nat (2 * k + b)); now rewrite H). lia. }
  intros i j f g m k Hi Hj H.
  destruct i as [|[|i]]; cbn [cl_two nth_error] in Hi; try (destruct i; discriminate); injection Hi as <-;
    destruct j as [|[|j]]; cbn [nth_error] in Hj; try (destruct j; discriminate); injection Hj as <-; apply G in H; lia.
Qed.
Lemma cl_ok : acts_ok (map seat_of cl_two) no_table cl_more.
Proof.
  apply acts_check; [vm_compute; reflexivity| |].
  - intros i cf H. assert (cf = tk_cf) as -> by (cbn [cl_more cl_acts cl_rest app In] in H; repeat (destruct H as [H|H]; [congruence|]); contradiction).
    split; [reflexivity|]. split; [reflexivity|]. split; [exact tk_ascii|discriminate].
  - assert (F: Forall ireq_ok (map snd (asked_of cl_more))) by (cbn [asked_of cl_more cl_acts cl_rest app written map snd]; reqs_tac).
    rewrite Forall_forall in *. intros x Hx. apply F. now apply in_map.
Qed.
Lemma cl_acts_ok : acts_ok (map seat_of cl_two) no_table cl_acts.
Proof. exact (proj1 (acts_app cl_acts cl_rest (map seat_of cl_two) no_table cl_ok)). Qed.
Lemma cl_dirs : Forall empty_dir cl_two.
Proof. repeat constructor. Qed.
Definition cl_shelf (i : nat) (l : list (nat * act)) : shelf :=
  let '(X, T, _) := seats_run (map seat_of cl_two) no_table l in
  match nth_error X i with Some (mkSeat _ _ _ _ (Some (_, d))) => with_table d T | _ => open_shelf tk_cf 0 T end.
(* {job=a} of one directory and {rack=7} of the other are both series 1 of the one table *)
Example C71_case :
  Forall env_ok cl_two /\ Forall empty_dir cl_two /\ own_uuids cl_two /\ unknown cl_two [] /\ no_points [] /\ acts_ok (map seat_of cl_two) no_table cl_more /\
  Z.of_nat (length (asked_of cl_more)) < 2 ^ 64 - 1 /\
  (forall hs q a b, unmixed hs (shelf_parts (cl_shelf 0 cl_more)) q a b /\ unmixed hs (shelf_parts (cl_shelf 1 cl_more)) q a b) /\
  option_map fst (cl_run cl_more cl_none) = Some (repeat (Ok tt) 10) /\
  cl_ask 0 [lab "job" "a"] 1000 2000 (cl_after cl_acts) = Some (Ok [([lab "job" "a"], [mkTp 1010 7; mkTp 1020 5; mkTp 1030 8])]) /\
  cl_ask 1 [lab "rack" "7"] 1000 2000 (cl_after cl_acts) = Some (Ok [([lab "rack" "7"], [mkTp 1010 7; mkTp 1020 5; mkTp 1030 8])]) /\
  cl_ask 1 [lab "rack" "8"] 1000 2000 (cl_after cl_more) = Some (Ok [([lab "rack" "8"], [mkTp 1040 1; mkTp 1050 2])]) /\
  cl_ask 0 [lab "job" "a"] 0 9000 (cl_after cl_more) = Some (Ok []) /\
  cl_ask 0 [lab "job" "b"] 0 9000 (cl_after cl_more) = Some (Ok [([lab "job" "b"], [mkTp 1010 7; mkTp 1020 5; mkTp 1030 8; mkTp 4010 9])]).
Proof.
  split; [exact cl_env|]. split; [exact cl_dirs|]. split; [exact cl_uuids|]. split; [intros f m r _; reflexivity|]. split; [intros k _; reflexivity|].
  split; [exact cl_ok|]. split; [vm_compute; reflexivity|].
  split; [intros hs q a b; split; apply unmixed_check; vm_compute; reflexivity|].
  repeat (split; [vm_compute; reflexivity|]). vm_compute. reflexivity.
Qed.
(* the point of {job=b} at 4010 is the newest of all *)
Example C71_newest_case :
  cl_more = firstn 9 cl_more ++ (0%nat, Run (OpPoint [lab "job" "b"] (mkTp 4010 9))) :: [] /\
  nth_error (snd (seats_run (map seat_of cl_two) no_table cl_more)) 9 = Some (Ok tt) /\
  (forall j y, In (j, y) (asked_of (firstn 9 cl_more)) -> tp_ts (snd y) < 4010) /\
  (forall j y, In (j, y) (asked_of cl_more) -> 0 <= tp_ts (snd y) <= 9000).
Proof.
  split; [reflexivity|]. split; [vm_compute; reflexivity|].
  split; intros j y H; cbn [asked_of cl_more cl_acts cl_rest app firstn written map In] in H; repeat (destruct H as [H|H]; [injection H as <- <-; cbn [snd tp_ts]; lia|]); contradiction.
Qed.


(* "a database answers points written to it only": false, while both are running *)
Theorem C71_own_points_refuted : exists fs l i q a b rs C r C' m pts p, Forall env_ok fs /\ Forall empty_dir fs /\ own_uuids fs /\
  acts_ok (map seat_of fs) no_table l /\ cl_run l (nobody fs []) = Some (rs, C) /\ Forall (eq (Ok tt)) rs /\
  run clhandler (at_dir i (t_query all_probe scan_bs no_timing q a b)) C = Some (Ok r, C') /\ In (m, pts) r /\ In p pts /\
  ~ exists ls, In (i, (ls, p)) (asked_of l).
Proof.
  exists cl_two, cl_acts, 1%nat, [lab "rack" "7"], 1000, 2000, (repeat (Ok tt) 6). eexists.
  exists [([lab "rack" "7"], [mkTp 1010 7; mkTp 1020 5; mkTp 1030 8])]. eexists. exists [lab "rack" "7"], [mkTp 1010 7; mkTp 1020 5; mkTp 1030 8], (mkTp 1010 7).
  split; [exact cl_env|]. split; [exact cl_dirs|]. split; [exact cl_uuids|]. split; [exact cl_acts_ok|].
  split; [apply (kept _ _ cl_none); vm_compute; reflexivity|]. split; [repeat constructor|].
  split; [apply (kept _ _ cl_none); vm_compute; reflexivity|]. split; [now left|]. split; [now left|].
  intros (ls & H). cbn [asked_of cl_acts written map app In] in H. repeat (destruct H as [H|H]; [discriminate H|]). contradiction.
Qed.
Print Assumptions C71_own_points_refuted.
(* "a point that was taken is answered, if each process is given its points in order": false.  The point at 1025 is later than
   what its own process wrote before, but not later than what the other one wrote *)
Theorem C71_acknowledged_refuted : exists fs l i ls p rs C r C', Forall env_ok fs /\ Forall empty_dir fs /\ own_uuids fs /\
  acts_ok (map seat_of fs) no_table (l ++ [(i, Run (OpPoint ls p))]) /\
  (forall j, StronglySorted (fun x y => tp_ts (snd x) < tp_ts (snd y)) (since j (l ++ [(i, Run (OpPoint ls p))]) [])) /\
  cl_run (l ++ [(i, Run (OpPoint ls p))]) (nobody fs []) = Some (rs, C) /\ Forall (eq (Ok tt)) rs /\
  run clhandler (at_dir i (t_query all_probe scan_bs no_timing ls 0 (2 ^ 64 - 1))) C = Some (Ok r, C') /\ forall m pts, In (m, pts) r -> ~ In p pts.
Proof.
  exists cl_two, (firstn 5 cl_acts), 1%nat, [lab "rack" "7"], (mkTp 1025 6), (repeat (Ok tt) 6). eexists.
  exists [([lab "rack" "7"], [mkTp 1010 7; mkTp 1020 5; mkTp 1030 8])]. eexists.
  split; [exact cl_env|]. split; [exact cl_dirs|]. split; [exact cl_uuids|]. split; [exact cl_acts_ok|].
  split. { intros j. cbn [firstn cl_acts app since written]. destruct j as [|[|j]]; cbn [Nat.eqb app]; repeat constructor. }
  split; [apply (kept _ _ cl_none); vm_compute; reflexivity|]. split; [repeat constructor|].
  split; [apply (kept _ _ cl_none); vm_compute; reflexivity|]. intros m pts [E|[]] H. injection E as <- <-. destruct H as [H|[H|[H|[]]]]; discriminate H.
Qed.
Print Assumptions C71_acknowledged_refuted.

(* two processes write at once, both to their first series *)
Lemma first_of {A B} (x : A * B) a : fst x = a -> x = (a, snd x).
Proof. destruct x. cbn. now intros ->. Qed.
Definition cl_sched : list nat := (repeat 0 4 ++ repeat 1 20 ++ repeat 0 20)%list%nat.
(* "the newest point (C71_newest), once taken, is answered also if another process writes meanwhile": false.  The other process
   read the series before the point was stored, and then stored the series without it; both writes succeed *)
Theorem C71_at_once_refuted : exists fs l i ls p j ls' p' rs C sched C1 r C2 cf, Forall env_ok fs /\ Forall empty_dir fs /\ own_uuids fs /\
  acts_ok (map seat_of fs) no_table l /\ cl_run l (nobody fs []) = Some (rs, C) /\ Forall (eq (Ok tt)) rs /\ i <> j /\
  (forall k y, In (k, y) ((j, (ls', p')) :: asked_of l) -> tp_ts (snd y) < tp_ts p) /\ (forall k y, In (k, y) (asked_of l) -> tp_ts (snd y) < tp_ts p') /\
  interleave clhandler sched [at_dir j (top_prog cf (OpPoint ls' p')); at_dir i (top_prog cf (OpPoint ls p))] C = ([Ret (Ok tt); Ret (Ok tt)], C1) /\
  run clhandler (at_dir i (t_query all_probe scan_bs no_timing ls 0 (2 ^ 64 - 1))) C1 = Some (Ok r, C2) /\ forall m pts, In (m, pts) r -> ~ In p pts.
Proof.
  exists cl_two, (firstn 4 cl_acts), 1%nat, [lab "rack" "7"], (mkTp 1060 4), 0%nat, [lab "job" "a"], (mkTp 1050 3), (repeat (Ok tt) 4), (cl_after (firstn 4 cl_acts)), cl_sched.
  eexists. exists [([lab "rack" "7"], [mkTp 1010 7; mkTp 1020 5; mkTp 1050 3])]. eexists. exists tk_cf.
  split; [exact cl_env|]. split; [exact cl_dirs|]. split; [exact cl_uuids|].
  split; [exact (proj1 (acts_app (firstn 4 cl_acts) (skipn 4 cl_acts) (map seat_of cl_two) no_table cl_acts_ok))|].
  split; [apply (kept _ _ cl_none); vm_compute; reflexivity|]. split; [repeat constructor|]. split; [discriminate|].
  split; [intros k y H|split; [intros k y H|]];
    [cbn [asked_of cl_acts firstn written map app In] in H; repeat (destruct H as [H|H]; [injection H as <- <-; cbn [snd tp_ts]; lia|]); contradiction..|].
  split; [apply first_of; vm_compute; reflexivity|].
  split; [apply (kept _ _ cl_none); vm_compute; reflexivity|]. intros m pts [E|[]] H. injection E as <- <-. destruct H as [H|[H|[H|[]]]]; discriminate H.
Qed.
Print Assumptions C71_at_once_refuted.
