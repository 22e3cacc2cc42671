(* Proofs: what a crash during a swap leaves of the answers. *)
From Coq Require Import ZifyBool ZifyNat Permutation Sorted.
From Verif Require Import Rust StringProofs Prog Gorilla GorillaSpec Storage StorageSpec StorageProofs Labels IndexSpec Indexer
  LabelProofs IndexProofs Chunk ChunkSpec ChunkProofs ChunkFacts Conc Utils DirSpec DirProofs TiKvInit Db DbSpec MapProofs DbProofs DbHist RangeSpec RangeProofs DbFacts
  ReopenSpec ReopenProofs OpenProofs CrashOpen.

(** ** a store never opened and an empty store *)
Definition simdir (a b : list Z * cdir) : Prop :=
  fst a = fst b /\ cd_meta (snd a) = cd_meta (snd b) /\
  open_or_new (cd_st (snd a)) = open_or_new (cd_st (snd b)) /\ open_or_new (cd_ix (snd a)) = open_or_new (cd_ix (snd b)).
Record sim (f g : fworld) : Prop := mkSim {
  sm_meta : f_meta f = f_meta g;
  sm_dirs : Forall2 simdir (f_dirs f) (f_dirs g);
  sm_order : f_order f = f_order g;
  sm_clock : f_clock f = f_clock g;
  sm_ticks : f_ticks f = f_ticks g;
  sm_uuid : f_uuid f = f_uuid g;
  sm_drawn : f_drawn f = f_drawn g;
  sm_faults : f_faults f = f_faults g }.

Lemma sim_next f g : sim f g -> sim (next_fault f) (next_fault g).
Proof. intros [H1 H2 H3 H4 H5 H6 H7 H8]. destruct f, g. cbn in *. subst. destruct f_faults0; constructor; cbn; auto. Qed.
Definition same_cd (a b : cdir) : Prop :=
  cd_meta a = cd_meta b /\ open_or_new (cd_st a) = open_or_new (cd_st b) /\ open_or_new (cd_ix a) = open_or_new (cd_ix b).
Lemma sim_find ds ds' n : Forall2 simdir ds ds' ->
  match find_dir ds n, find_dir ds' n with
  | Some a, Some b => same_cd a b
  | None, None => True
  | _, _ => False
  end.
Proof.
  induction 1 as [|[m a] [m' b] ds ds' (E & H) F IH]; cbn [find_dir]; [exact I|]. cbn [fst snd] in *. subst m'.
  destruct (name_eqb m n); [exact H|exact IH].
Qed.
Lemma sim_put ds ds' n a b : Forall2 simdir ds ds' -> same_cd a b -> Forall2 simdir (put_dir ds n a) (put_dir ds' n b).
Proof.
  induction 1 as [|[m x] [m' y] ds ds' (E & H) F IH]; intros S; cbn [put_dir].
  - constructor; [|constructor]. split; [reflexivity|exact S].
  - cbn [fst snd] in *. subst m'. destruct (name_eqb m n); constructor; try assumption; try (split; [reflexivity|assumption]). now apply IH.
Qed.
Lemma sim_names ds ds' : Forall2 simdir ds ds' -> map fst ds = map fst ds'.
Proof. induction 1 as [|a b ds ds' (E & _) F IH]; [reflexivity|]. cbn [map]. now rewrite E, IH. Qed.
Lemma sim_set f g ds ds' : sim f g -> Forall2 simdir ds ds' -> sim (set_dirs f ds) (set_dirs g ds').
Proof. intros [H1 H2 H3 H4 H5 H6 H7 H8] H. destruct f, g. constructor; cbn in *; assumption. Qed.
Lemma sim_fmeta f g m : sim f g -> sim (set_fmeta f m) (set_fmeta g m).
Proof. intros [H1 H2 H3 H4 H5 H6 H7 H8]. destruct f, g. constructor; cbn in *; auto. Qed.

Lemma sim_step f g X (c : fcmd X) : sim f g ->
  exists x f' g', fhandler X c f = Some (x, f') /\ fhandler X c g = Some (x, g') /\ sim f' g'.
Proof.
  intros H. pose proof (sim_next f g H) as HN. pose proof H as [H1 H2 H3 H4 H5 H6 H7 H8].
  assert (FD: forall n, match find_dir (f_dirs f) n, find_dir (f_dirs g) n with Some a, Some b => same_cd a b | None, None => True | _, _ => False end)
    by (intros; now apply sim_find).
  assert (FD': forall n, match find_dir (f_dirs (next_fault f)) n, find_dir (f_dirs (next_fault g)) n with Some a, Some b => same_cd a b | None, None => True | _, _ => False end)
    by (intros; apply sim_find; apply HN).
  assert (W: forall n (h : cdir -> cdir), (forall a b, same_cd a b -> same_cd (h a) (h b)) ->
    sim (set_dirs (next_fault f) (put_dir (f_dirs (next_fault f)) n (h match find_dir (f_dirs (next_fault f)) n with Some d => d | None => no_dir end)))
        (set_dirs (next_fault g) (put_dir (f_dirs (next_fault g)) n (h match find_dir (f_dirs (next_fault g)) n with Some d => d | None => no_dir end)))).
  { intros n h Hh. apply sim_set; [assumption|]. apply sim_put; [apply HN|]. apply Hh. specialize (FD' n).
    destruct (find_dir (f_dirs (next_fault f)) n), (find_dir (f_dirs (next_fault g)) n); try contradiction; [assumption|repeat split]. }
  destruct c; cbn [fhandler]; rewrite <- ?H8.
  - rewrite H4, H5. eexists _, _, _. split; [reflexivity|]. split; [reflexivity|]. destruct f, g. constructor; cbn in *; congruence || assumption.
  - rewrite H6, H7. eexists _, _, _. split; [reflexivity|]. split; [reflexivity|]. destruct f, g. constructor; cbn in *; congruence || assumption.
  - rewrite H1. eexists _, _, _. split; [reflexivity|]. split; [reflexivity|]. assumption.
  - destruct (hd false (f_faults f)); eexists _, _, _; (split; [reflexivity|]); (split; [reflexivity|]); [assumption|now apply sim_fmeta].
  - destruct (hd false (f_faults f)); eexists _, _, _; (split; [reflexivity|]); (split; [reflexivity|]); [assumption|now apply sim_fmeta].
  - assert (EN: entries f = entries g) by (unfold entries; now rewrite H1, (sim_names _ _ H2)). rewrite EN, H3.
    eexists _, _, _. split; [reflexivity|]. split; [reflexivity|]. assumption.
  - destruct (hd false (f_faults f)); eexists _, _, _; (split; [reflexivity|]); (split; [reflexivity|]); [assumption|]. apply (W name (fun d => d)). auto.
  - specialize (FD name). assert (E: match find_dir (f_dirs f) name with Some d => cd_meta d | None => None end = match find_dir (f_dirs g) name with Some d => cd_meta d | None => None end).
    { destruct (find_dir (f_dirs f) name), (find_dir (f_dirs g) name); try contradiction; [apply FD|reflexivity]. }
    rewrite E. eexists _, _, _. split; [reflexivity|]. split; [reflexivity|]. assumption.
  - destruct (hd false (f_faults f)); eexists _, _, _; (split; [reflexivity|]); (split; [reflexivity|]); [assumption|].
    apply (W name (fun d => mkCdir (Some Empty) (cd_st d) (cd_ix d))). intros a b (K1 & K2). split; [reflexivity|exact K2].
  - destruct (hd false (f_faults f)); eexists _, _, _; (split; [reflexivity|]); (split; [reflexivity|]); [assumption|].
    apply (W name (fun d => mkCdir (Some (Written o)) (cd_st d) (cd_ix d))). intros a b (K1 & K2). split; [reflexivity|exact K2].
  - specialize (FD name).
    assert (E: open_or_new match find_dir (f_dirs f) name with Some d => cd_st d | None => None end = open_or_new match find_dir (f_dirs g) name with Some d => cd_st d | None => None end).
    { destruct (find_dir (f_dirs f) name), (find_dir (f_dirs g) name); try contradiction; [apply FD|reflexivity]. }
    destruct (hd false (f_faults f)); [eexists _, _, _; (split; [reflexivity|]); (split; [reflexivity|]); assumption|]. rewrite E.
    eexists _, _, _. split; [reflexivity|]. split; [reflexivity|].
    apply (W name (fun d => mkCdir (cd_meta d) (Some (open_or_new (cd_st d))) (cd_ix d))). intros a b (K1 & K2 & K3). split; [exact K1|]. split; [cbn; exact K2|exact K3].
  - specialize (FD name).
    assert (E: open_or_new match find_dir (f_dirs f) name with Some d => cd_ix d | None => None end = open_or_new match find_dir (f_dirs g) name with Some d => cd_ix d | None => None end).
    { destruct (find_dir (f_dirs f) name), (find_dir (f_dirs g) name); try contradiction; [apply FD|reflexivity]. }
    destruct (hd false (f_faults f)); [eexists _, _, _; (split; [reflexivity|]); (split; [reflexivity|]); assumption|]. rewrite E.
    eexists _, _, _. split; [reflexivity|]. split; [reflexivity|].
    apply (W name (fun d => mkCdir (cd_meta d) (cd_st d) (Some (open_or_new (cd_ix d))))). intros a b (K1 & K2 & K3). split; [exact K1|]. split; [exact K2|cbn; exact K3].
Qed.
Lemma sim_run {A} (p : prog fcmd A) : forall f g, sim f g ->
  exists x f' g', run fhandler p f = Some (x, f') /\ run fhandler p g = Some (x, g') /\ sim f' g'.
Proof.
  induction p as [a|X c k IH]; intros f g H; cbn [run]; [eauto 8|].
  destruct (sim_step f g X c H) as (x & f1 & g1 & -> & -> & S). now apply IH.
Qed.
Lemma sim_open cf f g r w : sim f g -> db_open cf g = Some (r, w) ->
  exists f', db_open cf f = Some (r, set_fs w f') /\ sim f' (d_fs w).
Proof.
  intros H. unfold db_open. destruct (sim_run (db_new cf) f g H) as (x & f' & g' & -> & -> & S).
  destruct x as [x|e|]; intros E; (match type of E with Some ?a = Some ?b => assert (Q: b = a) by congruence end;
    assert (r = fst (r, w)) as -> by reflexivity; rewrite Q; cbn [fst]; assert (w = snd (r, w)) as -> by reflexivity; rewrite Q; cbn [snd]);
    exists f'; (split; [reflexivity|exact S]).
Qed.

Lemma sim_state cf w l f' : state cf w l -> sim f' (d_fs w) -> state cf (set_fs w f') l.
Proof.
  intros (l0 & c & A & h0 & d & -> & [H1 H2 H3 H4 H5 H6 H7 H8 H9 H10 H11 H12]) [S1 S2 S3 S4 S5 S6 S7 S8].
  exists l0, c, A, h0, d. split; [reflexivity|]. constructor; try assumption; cbn [set_fs d_fs].
  - destruct H9 as (K1 & K2 & K3 & K4). unfold env_ok. rewrite S3, S4, S6, S8. auto.
  - congruence.
  - remember (h0 ++ [d]) as hs eqn:Q. clear - S2 H11. revert hs H11. induction S2 as [|a b ds ds' (E & M & _) F IH]; intros hs H; inversion H as [|? x ? hs' (K1 & (o & st & ix & K2) & K3) K4]; subst; constructor.
    + split; [congruence|]. split; [|assumption]. rewrite K2 in M. cbn [cd_meta] in M. destruct (snd a) as [m st' ix']. cbn [cd_meta] in M. subst m. eauto.
    + now apply IH.
Qed.

(** ** the files left behind, from the contents of the stores *)
Definition stores (h : list dchunk) : list (list Z * (kv * kv)) := map (fun d => (dc_name d, (w_st (dc_world d), w_ix (dc_world d)))) h.
Lemma find_stores h n : find (fun s => name_eqb (fst s) n) (stores h) =
  option_map (fun d => (dc_name d, (w_st (dc_world d), w_ix (dc_world d)))) (find (fun d => name_eqb (dc_name d) n) h).
Proof. induction h as [|d h IH]; [reflexivity|]. cbn [stores map find fst]. destruct (name_eqb (dc_name d) n); [reflexivity|exact IH]. Qed.
Definition leave (ss : list (list Z * (kv * kv))) (e : list Z * cdir) : list Z * cdir :=
  match find (fun s => name_eqb (fst s) (fst e)) ss with
  | None => e
  | Some s => (fst e, mkCdir (cd_meta (snd e)) (Some (fst (snd s))) (Some (snd (snd s))))
  end.
Lemma stopped_stores cf w : cf_st cf = Sled -> cf_ix cf = Sled ->
  stopped cf w = set_dirs (d_fs w) (map (leave (stores (d_heap w))) (f_dirs (d_fs w))).
Proof.
  intros H1 H2. unfold stopped, left_behind. rewrite H1, H2. f_equal. apply map_ext. intros e. unfold leave. rewrite find_stores.
  destruct (find _ (d_heap w)); reflexivity.
Qed.

(* programs that leave the stores alone *)
Definition still_cmd {X} (c : dcmd X) : Prop :=
  match c with
  | DF _ | DAlloc _ => False
  | DC _ c => match c with CSt _ | CIx _ => False | _ => True end
  | _ => True
  end.
Inductive still {A} : prog dcmd A -> Prop :=
| still_ret a : still (Ret a)
| still_do X (c : dcmd X) k : still_cmd c -> (forall x, still (k x)) -> still (Do c k).
Lemma still_bind {A B} (p : prog dcmd A) (k : A -> prog dcmd B) : still p -> (forall a, still (k a)) -> still (bind p k).
Proof. induction 1 as [a|X c q Q H IH]; intros K; cbn [bind]; [apply K|]. constructor; [assumption|]. intros x. now apply IH. Qed.
Lemma still_call {X} (c : dcmd X) : still_cmd c -> still (call c).
Proof. intros H. constructor; [assumption|]. intros x. constructor. Qed.
Lemma stores_upd h i d w' : nth_error h i = Some d -> w_st w' = w_st (dc_world d) -> w_ix w' = w_ix (dc_world d) ->
  stores (upd h i (mkDc (dc_chunk d) w' (dc_name d))) = stores h.
Proof.
  revert i. induction h as [|x h IH]; intros [|i]; cbn [nth_error]; try discriminate.
  - intros E K1 K2. assert (x = d) by congruence. subst x. unfold upd. cbn. unfold stores. cbn [map dc_name dc_world]. now rewrite K1, K2.
  - intros E K1 K2. rewrite upd_cons. cbn [stores map]. f_equal. now apply IH.
Qed.
Lemma still_crash {A} (p : prog dcmd A) : still p -> forall n w, stores (d_heap (snd (crash_at dhandler n p w))) = stores (d_heap w).
Proof.
  induction 1 as [a|X c k Q H IH]; intros [|n] w; try reflexivity. cbn [crash_at]. destruct (dhandler X c w) as [[x w']|] eqn:E; [|reflexivity].
  rewrite IH. clear IH H. destruct c as [X i c|X c|d| | | |j|u| | | |j|u]; cbn [still_cmd] in Q; try contradiction.
  - cbn [dhandler] in E. destruct (nth_error (d_heap w) i) as [d|] eqn:Ed; [|discriminate].
    destruct (chandler (dc_chunk d) X c (dc_world d)) as [[y v]|] eqn:Ec; [|discriminate].
    assert (w' = set_heap w (upd (d_heap w) i (mkDc (dc_chunk d) v (dc_name d)))) as -> by congruence. cbn [set_heap d_heap].
    apply (stores_upd _ _ d); [assumption|..]; clear E; destruct c; try contradiction; cbn [chandler] in Ec;
      repeat match type of Ec with context [if ?b then _ else _] => destruct b; try discriminate Ec end;
      match type of Ec with Some (_, ?a) = Some (_, ?b) => assert (b = a) as -> by congruence end; reflexivity.
  - cbn [dhandler] in E. repeat match type of E with context [match ?x with _ => _ end] => destruct x; try discriminate E end;
    match type of E with Some (_, ?a) = Some (_, ?b) => assert (a = b) as <- by congruence end; reflexivity.
  - cbn [dhandler] in E. repeat match type of E with context [match ?x with _ => _ end] => destruct x; try discriminate E end;
    match type of E with Some (_, ?a) = Some (_, ?b) => assert (a = b) as <- by congruence end; reflexivity.
  - cbn [dhandler] in E. repeat match type of E with context [match ?x with _ => _ end] => destruct x; try discriminate E end;
    match type of E with Some (_, ?a) = Some (_, ?b) => assert (a = b) as <- by congruence end; reflexivity.
  - cbn [dhandler] in E. repeat match type of E with context [match ?x with _ => _ end] => destruct x; try discriminate E end;
    match type of E with Some (_, ?a) = Some (_, ?b) => assert (a = b) as <- by congruence end; reflexivity.
  - cbn [dhandler] in E. repeat match type of E with context [match ?x with _ => _ end] => destruct x; try discriminate E end;
    match type of E with Some (_, ?a) = Some (_, ?b) => assert (a = b) as <- by congruence end; reflexivity.
  - cbn [dhandler] in E. repeat match type of E with context [match ?x with _ => _ end] => destruct x; try discriminate E end;
    match type of E with Some (_, ?a) = Some (_, ?b) => assert (a = b) as <- by congruence end; reflexivity.
  - cbn [dhandler] in E. repeat match type of E with context [match ?x with _ => _ end] => destruct x; try discriminate E end;
    match type of E with Some (_, ?a) = Some (_, ?b) => assert (a = b) as <- by congruence end; reflexivity.
  - cbn [dhandler] in E. repeat match type of E with context [match ?x with _ => _ end] => destruct x; try discriminate E end;
    match type of E with Some (_, ?a) = Some (_, ?b) => assert (a = b) as <- by congruence end; reflexivity.
  - cbn [dhandler] in E. repeat match type of E with context [match ?x with _ => _ end] => destruct x; try discriminate E end;
    match type of E with Some (_, ?a) = Some (_, ?b) => assert (a = b) as <- by congruence end; reflexivity.
  - cbn [dhandler] in E. repeat match type of E with context [match ?x with _ => _ end] => destruct x; try discriminate E end;
    match type of E with Some (_, ?a) = Some (_, ?b) => assert (a = b) as <- by congruence end; reflexivity.
Qed.

(** ** stopping a swap over sled *)
Lemma create_sled cf start f n : cf_st cf = Sled -> cf_ix cf = Sled -> f_faults f = [] -> 0 <= start -> 0 <= cf_size cf -> start + cf_size cf < 2 ^ 64 ->
  let name := encode_chunk_dir start (start + cf_size cf) in
  let o := mkOpts start (start + cf_size cf) (f_uuid f (f_drawn f)) in
  let at_ a b := set_dirs (draw f) (f_dirs f ++ [(name, mkCdir (Some (Written o)) a b)]) in
  ~ In name (map fst (f_dirs f)) ->
  run fhandler (create_chunk cf start) f = Some (Ok (mkDc (mkChunk SledStorage SledIndexer start (start + cf_size cf)) (new_world [] []) name), at_ (Some []) (Some [])) /\
  cost fhandler (create_chunk cf start) f = 6%nat /\
  ((4 <= n)%nat -> exists a b, snd (crash_at fhandler n (create_chunk cf start) f) = at_ a b /\ open_or_new a = [] /\ open_or_new b = []).
Proof.
  intros Hst Hix Hf H0 Hsz Hend name o at_ Hn.
  set (f1 := draw f). assert (F1: f_faults f1 = []) by assumption.
  set (f2 := set_dirs f1 (f_dirs f ++ [(name, no_dir)])).
  set (f3 := set_dirs f1 (f_dirs f ++ [(name, mkCdir (Some Empty) None None)])).
  set (f4 := at_ None None). set (f5 := at_ (Some []) None). set (f6 := at_ (Some []) (Some [])).
  assert (L2: last_dir f2 (f_dirs f) name no_dir) by (repeat split; assumption).
  assert (L3: last_dir f3 (f_dirs f) name (mkCdir (Some Empty) None None)) by (repeat split; assumption).
  assert (L4: last_dir f4 (f_dirs f) name (mkCdir (Some (Written o)) None None)) by (repeat split; assumption).
  assert (L5: last_dir f5 (f_dirs f) name (mkCdir (Some (Written o)) (Some []) None)) by (repeat split; assumption).
  assert (E2: fhandler _ (FMkDir name) f1 = Some (Ok tt, f2)) by (apply fh_mkdir_new; assumption).
  assert (E3: fhandler _ (FCreateOpts name) f2 = Some (Ok tt, f3)) by (exact (fh_create _ _ _ _ L2)).
  assert (E4: fhandler _ (FWriteOpts name o) f3 = Some (Ok tt, f4)) by (exact (fh_write _ _ _ _ _ L3)).
  assert (E5: fhandler _ (FOpenSt name) f4 = Some (Ok [], f5)) by (exact (fh_openst _ _ _ _ L4)).
  assert (E6: fhandler _ (FOpenIx name) f5 = Some (Ok [], f6)) by (exact (fh_openix _ _ _ _ L5)).
  assert (E1: fhandler _ FUuid f = Some (f_uuid f (f_drawn f), f1)) by reflexivity.
  assert (AR: arith_u (cf_dbg cf) 64 (start + cf_size cf) = Ok (start + cf_size cf)).
  { unfold arith_u, in_u. replace ((0 <=? start + cf_size cf) && (start + cf_size cf <? 2 ^ 64)) with true by lia. reflexivity. }
  assert (P: create_chunk cf start = Do FUuid (fun ident => bind (Ret tt) (fun _ => match arith_u (cf_dbg cf) 64 (start + cf_size cf) with
     | Panic => Ret Panic | Err e => Ret (Err e)
     | Ok en => let o := mkOpts start en ident in let name := encode_chunk_dir start en in
        let! w := write_config_to_dir name o in
        match w with
        | Panic => Ret Panic
        | Err _ => Ret (Err InternalErr)
        | Ok _ => let? st := build_storage (cf_st cf) name o in let? ix := build_indexer (cf_ix cf) name o in
                  Ret (Ok (mkDc (mkChunk (fst st) (fst ix) start en) (new_world (snd st) (snd ix)) name))
        end end))) by reflexivity.
  rewrite Hst, Hix, AR in P. cbn [bind] in P. cbv zeta in P. fold name in P.
  rewrite P. unfold write_config_to_dir, build_storage, build_indexer, qbind, call. cbn [bind]. fold f1 in E1.
  split; [|split].
  - cbn [run]. rewrite E1. fold o. cbn [run]. rewrite E2. cbn [bind run]. rewrite E3. cbn [bind run]. rewrite E4. cbn [bind run]. rewrite E5. cbn [bind run]. rewrite E6. reflexivity.
  - cbn [cost]. rewrite E1. fold o. cbn [cost]. rewrite E2. cbn [bind cost]. rewrite E3. cbn [bind cost]. rewrite E4. cbn [bind cost]. rewrite E5. cbn [bind cost]. rewrite E6. reflexivity.
  - intros L. do 4 (destruct n as [|n]; [lia|]). cbn [crash_at]. rewrite E1. fold o. cbn [crash_at]. rewrite E2. cbn [bind crash_at]. rewrite E3. cbn [bind crash_at]. rewrite E4. cbn [bind].
    destruct n as [|n]; [exists None, None; repeat split|]. cbn [crash_at]. rewrite E5. cbn [bind].
    destruct n as [|n]; [exists (Some []), None; repeat split|]. cbn [crash_at]. rewrite E6. cbn [bind].
    exists (Some []), (Some []). destruct n; repeat split.
Qed.

Lemma still_close i : still (lift (fun X c => @DC X i c) chunk_close).
Proof.
  unfold chunk_close, with_write_lock, call. cbn [bind lift]. constructor; [exact I|]. intros [|]; cbn [bind lift];
    (constructor; [exact I|]); intros; cbn [bind lift]; [constructor|]. constructor; [exact I|]. intros; constructor.
Qed.
(* the world when a swap over sled has stopped after the chunk has been created *)
Lemma swap_stores cf start w n : cf_st cf = Sled -> cf_ix cf = Sled -> f_faults (d_fs w) = [] -> 0 <= start -> 0 <= cf_size cf -> start + cf_size cf < 2 ^ 64 ->
  let name := encode_chunk_dir start (start + cf_size cf) in
  ~ In name (map fst (f_dirs (d_fs w))) ->
  let w' := snd (crash_at dhandler n (db_swap cf start) w) in
  stores (d_heap w') = stores (d_heap w) \/ stores (d_heap w') = stores (d_heap w) ++ [(name, ([], []))].
Proof.
  intros Hst Hix Hf H0 Hsz Hend name Hn. cbv zeta. destruct (create_sled cf start (d_fs w) n Hst Hix Hf H0 Hsz Hend Hn) as (R & K & _).
  unfold db_swap. set (p := lift (@DF) (create_chunk cf start)). destruct (Nat.le_gt_cases n (cost dhandler p w)) as [L|L].
  { left. rewrite crash_qbefore by assumption. unfold p. rewrite crash_lift. reflexivity. }
  remember (n - cost dhandler p w)%nat as j eqn:Ej. assert (n = cost dhandler p w + j)%nat as -> by lia. unfold p.
  rewrite (crash_qafter dhandler _ _ w _ _ (run_lift_fs _ w _ _ R)). destruct j as [|j]; [lia|].
  rewrite (crash_call dhandler (DAlloc _) _ _ _ _ j eq_refl). right.
  match goal with |- stores (d_heap (snd (crash_at dhandler j ?q ?v))) = _ => assert (Q: still q); [|rewrite (still_crash q Q j v)] end.
  - unfold qbind. apply still_bind.
    { unfold with_current. apply still_bind; [apply still_call; exact I|]. intros (ps & i & ch). destruct ps.
      - apply still_bind; [apply still_call; exact I|]. intros; constructor.
      - apply still_bind.
        + apply still_bind; [apply still_call; exact I|]. intros [|]; (apply still_bind; [apply still_call; exact I|]); intros; [constructor|].
          apply still_bind; [apply still_call; exact I|]. intros; constructor.
        + intros r. apply still_bind; [apply still_call; exact I|]. intros; constructor. }
    intros [a|e|]; [|constructor..]. apply still_bind; [apply still_call; exact I|]. intros (ps & i & ch). destruct ps.
    + apply still_bind; [apply still_call; exact I|]. intros; constructor.
    + apply still_bind; [apply still_close|]. intros [a'|e|]; (apply still_bind; [apply still_call; exact I|]); intros; [|constructor..].
      apply still_bind; [apply still_call; exact I|]. intros; constructor.
  - cbn [set_heap set_fs d_heap]. unfold stores at 1. rewrite map_app. reflexivity.
Qed.

Lemma simdir_refl e : simdir e e.
Proof. repeat split. Qed.
Lemma leave_more ss name x e : fst e <> name -> leave (ss ++ [(name, x)]) e = leave ss e.
Proof.
  intros N. unfold leave. assert (E: find (fun s => name_eqb (fst s) (fst e)) (ss ++ [(name, x)]) = find (fun s => name_eqb (fst s) (fst e)) ss).
  { induction ss as [|s ss IH]; cbn [app find fst].
    - unfold name_eqb. destruct (bytes_eqb name (fst e)) eqn:Q; [apply bytes_eqb_spec in Q; congruence|reflexivity].
    - destruct (name_eqb (fst s) (fst e)); [reflexivity|exact IH]. }
  now rewrite E.
Qed.
Lemma leave_new ss name m a b : ~ In name (map fst ss) -> open_or_new a = [] -> open_or_new b = [] ->
  simdir (leave ss (name, mkCdir m a b)) (name, mkCdir m (Some []) (Some [])) /\
  simdir (leave (ss ++ [(name, ([], []))]) (name, mkCdir m a b)) (name, mkCdir m (Some []) (Some [])).
Proof.
  intros N Ha Hb. assert (F: find (fun s => name_eqb (fst s) name) ss = None).
  { induction ss as [|s ss IH]; [reflexivity|]. cbn [find map] in *. unfold name_eqb in *. destruct (bytes_eqb (fst s) name) eqn:Q.
    - exfalso. apply N. left. now apply bytes_eqb_spec.
    - apply IH. intros K. apply N. now right. }
  unfold leave. cbn [fst]. rewrite F. split.
  - repeat split; assumption.
  - assert (G: find (fun s => name_eqb (fst s) name) (ss ++ [(name, (@nil (bytes * bytes), @nil (bytes * bytes)))]) = Some (name, ([], []))).
    { clear - F. induction ss as [|s ss IH]; cbn [app find fst] in *.
      - unfold name_eqb. now rewrite bytes_eqb_refl.
      - destruct (name_eqb (fst s) name); [discriminate|]. now apply IH. }
    rewrite G. cbn [fst snd]. repeat split.
Qed.

Lemma sim_refl_dirs ds : Forall2 simdir ds ds.
Proof. induction ds; constructor; [apply simdir_refl|assumption]. Qed.
Lemma leave_old ss name x ds : ~ In name (map fst ds) -> map (leave (ss ++ [(name, x)])) ds = map (leave ss) ds.
Proof. intros H. apply map_ext_in. intros e He. apply leave_more. intros K. apply H. rewrite <- K. now apply in_map. Qed.
(* wherever it stopped after the chunk was created, the files are those of the completed swap *)
Lemma swap_sim cf start w n m : cf_st cf = Sled -> cf_ix cf = Sled -> f_faults (d_fs w) = [] -> 0 <= start -> 0 <= cf_size cf -> start + cf_size cf < 2 ^ 64 ->
  let name := encode_chunk_dir start (start + cf_size cf) in
  ~ In name (map fst (f_dirs (d_fs w))) -> ~ In name (map dc_name (d_heap w)) -> (4 <= n)%nat -> (4 <= m)%nat ->
  sim (stopped cf (snd (crash_at dhandler n (db_swap cf start) w))) (stopped cf (snd (crash_at dhandler m (db_swap cf start) w))).
Proof.
  intros Hst Hix Hf H0 Hsz Hend name Hn Hh Ln Lm.
  assert (G: forall k, (4 <= k)%nat -> exists ds, Forall2 simdir ds (map (leave (stores (d_heap w))) (f_dirs (d_fs w)) ++
      [(name, mkCdir (Some (Written (mkOpts start (start + cf_size cf) (f_uuid (d_fs w) (f_drawn (d_fs w)))))) (Some []) (Some []))]) /\
    stopped cf (snd (crash_at dhandler k (db_swap cf start) w)) = set_dirs (draw (d_fs w)) ds).
  { intros k Lk. destruct (create_sled cf start (d_fs w) k Hst Hix Hf H0 Hsz Hend Hn) as (R & _ & C). destruct (C Lk) as (a & b & C1 & C2 & C3).
    rewrite stopped_stores by assumption. rewrite (swap_fs cf start w _ _ k R), C1. fold name. cbn [set_dirs f_dirs]. eexists. split; [|reflexivity].
    rewrite map_app. cbn [map].
    assert (NS: ~ In name (map fst (stores (d_heap w)))) by (unfold stores; rewrite map_map; exact Hh).
    destruct (leave_new (stores (d_heap w)) name (Some (Written (mkOpts start (start + cf_size cf) (f_uuid (d_fs w) (f_drawn (d_fs w)))))) a b NS C2 C3) as (V1 & V2).
    destruct (swap_stores cf start w k Hst Hix Hf H0 Hsz Hend Hn) as [-> | ->].
    - apply Forall2_app; [apply sim_refl_dirs|constructor; [exact V1|constructor]].
    - fold name. rewrite leave_old by assumption. apply Forall2_app; [apply sim_refl_dirs|constructor; [exact V2|constructor]]. }
  destruct (G n Ln) as (ds & D1 & ->), (G m Lm) as (ds' & D2 & ->). constructor; try reflexivity. cbn [set_dirs f_dirs].
  clear - D1 D2. revert ds' D2. induction D1 as [|a b ds l (A1 & A2 & A3 & A4) D IH]; intros ds' D2; inversion D2 as [|c ? ds2 ? (B1 & B2 & B3 & B4) D3]; subst; constructor.
  - split; [congruence|]. split; [congruence|]. split; congruence.
  - now apply IH.
Qed.

(** ** answers after stopping and reopening a running database *)
Lemma empty_part_ok c : part_ok (c, []).
Proof.
  constructor; cbn [snd].
  - constructor; [constructor|constructor|]. intros [|i] j a b E; discriminate.
  - constructor.
  - cbn. lia.
Qed.
Lemma clip_fits clock lo hi l l1 : monotone clock ->
  (forall c ls pts p, In c l -> In (ls, pts) (snd c) -> In p pts -> tp_ts p <= clock lo /\ tp_ts p <= c_end (fst c)) ->
  Forall2 (clip clock lo hi) l l1 -> Forall2 fits l l1.
Proof.
  intros Hm Hp C. induction C as [|c c' l l1 (E1 & E2 & en & i & E3 & E4 & E5) C IH]; constructor.
  - split; [assumption|]. split; [assumption|]. intros ls pts p G1 G2. destruct (Hp c ls pts p ltac:(now left) G1 G2) as [G3 G4]. split; [assumption|].
    specialize (Hm lo i ltac:(lia)). rewrite E5. destruct (Z.ltb_spec (clock i) en) as [Q|Q]; [exact (Z.le_trans _ _ _ G3 Hm)|exact (Z.le_trans _ _ _ G4 E3)].
  - apply IH. intros. eapply Hp; [right|..]; eassumption.
Qed.
Lemma reopen_state cf w l : state cf w l -> cf_st cf = Sled -> cf_ix cf = Sled -> cf_base cf <> [] -> ascii (cf_base cf) -> 0 <= cf_size cf ->
  let f := d_fs w in
  monotone (f_clock f) -> (forall i, f_clock f i + cf_size cf < 2 ^ 64) ->
  (forall c i, In c l -> (f_ticks f <= i)%nat -> c_start (fst c) < f_clock f i) ->
  Forall2 fits l l -> (forall p, stored l p -> tp_ts p <= f_clock f (f_ticks f)) ->
  exists w' l' ch, db_open cf (stopped cf w) = Some (Ok tt, w') /\ state cf w' (l' ++ [(ch, [])]) /\ Forall2 fits l l'.
Proof.
  intros St S1 S2 Hb Ha Hsz f Hm Hend Hl Hfit Hpts.
  destruct (reopen_run cf cf w l St S1 S2 S1 S2 Hb Ha Hsz) as (w' & l1 & E & St' & _ & _ & _ & C).
  { intros c Hc. change (f_clock (stopped cf w)) with (f_clock f). change (f_ticks (stopped cf w)) with (f_ticks f). apply Hl; [assumption|lia]. }
  { apply (Hend _). }
  eexists w', l1, _. split; [exact E|]. split; [exact St'|]. eapply clip_fits; [exact Hm| |exact C].
  intros c ls pts p I1 I2 I3. split; [apply Hpts; red; eauto 8|]. destruct (F2_in_l _ _ _ _ Hfit I1) as (c' & _ & (_ & _ & K)). apply (K ls pts p I2 I3).
Qed.

Theorem swap_crash_keeps cf f ops st n hs bs o q s e : open_env cf f -> empty_dir f -> monotone (f_clock f) ->
  cf_st cf = Sled -> cf_ix cf = Sled ->
  let t0 := f_clock f (f_ticks f) in
  ops_ok cf t0 (ops ++ [OpSwap st]) -> timely (written ops) ->
  (forall i, (f_ticks f < i)%nat -> st < f_clock f i) ->
  (forall p, stored (parts cf t0 ops) p -> tp_ts p <= f_clock f (S (f_ticks f))) ->
  hasher_ok hs -> bs_contract bs -> Forall lab_ok q -> unmixed hs (parts cf t0 ops) q s e ->
  ~ In n [2; 3]%nat ->
  exists rs w r w' r', db_after cf f ops = Some (rs, w) /\ drun (db_query hs bs o q s e) w = Some (r, w) /\
    db_open cf (stopped cf (snd (crash_at dhandler n (db_swap cf st) w))) = Some (Ok tt, w') /\
    drun (db_query hs bs o q s e) w' = Some (r', w') /\ alike r r'.
Proof.
  intros He Hd Hm S1 S2 t0 Ho T Hclk Hpts Hh Hbs Hq Hp Hn. destruct (ops_split _ _ _ _ Ho) as (Ho' & Hst & Hend). pose proof He as (Henv & Hb & Ha & Hsz & Hcl).
  pose proof Ho' as (_ & H0 & _ & Hend0 & Hs & Hw & HL).
  destruct (open_run cf f Henv Hd Hb Hsz Hend0) as (w0 & E0 & S0 & T0 & N0 & _). fold t0 in S0.
  destruct (hist_from cf ops Hsz t0 [] w0 [] S0 Hs Hw HL) as (w & E & St & Tk & N). cbn [app] in St.
  change (parts_from cf t0 [] ops) with (parts cf t0 ops) in St. set (P := parts cf t0 ops) in *.
  assert (OK: Forall part_ok P) by (now apply parts_ok).
  destruct (query_any hs bs o q s e w P (state_quiet _ _ _ St) OK Hh Hbs Hq Hp) as (r & Er & Ar).
  assert (DA: db_after cf f ops = Some (outcomes cf t0 ops, w)) by (unfold db_after; rewrite E0; exact E).
  assert (Ec: f_clock (d_fs w) = f_clock f) by (destruct N as (_ & -> & _), N0 as (_ & -> & _); reflexivity).
  assert (Et: f_ticks (d_fs w) = S (f_ticks f)) by congruence.
  assert (Ef: f_faults (d_fs w) = []) by (destruct N as (_ & _ & _ & ->), N0 as (_ & _ & _ & ->); apply Henv).
  assert (G: 0 <= last_start t0 ops) by (pose proof (last_start_ge _ _ _ Hs); lia).
  assert (PF: Forall2 fits P P) by (now apply parts_fit).
  assert (SB: forall c, In c P -> c_start (fst c) <= last_start t0 ops) by (intros c Hc; exact (starts_bound cf ops t0 [] c Hs Hc)).
  assert (Fin: forall wc l ch0, (l = P \/ l = P ++ [(ch0, [])]) -> forall w', (exists l' ch, state cf w' (l' ++ [(ch, [])]) /\ Forall2 fits l l') -> db_open cf wc = Some (Ok tt, w') ->
     exists r', drun (db_query hs bs o q s e) w' = Some (r', w') /\ alike r r').
  { intros wc l ch0 Hl w' (l' & ch & St' & FT) _.
    assert (OKl: Forall part_ok l).
    { destruct Hl as [->| ->]; [assumption|]. apply Forall_app. split; [assumption|]. constructor; [apply empty_part_ok|constructor]. }
    assert (Pl: unmixed hs l q s e) by (destruct Hl as [->| ->]; [assumption|now apply free_empty]).
    destruct (query_any hs bs o q s e w' _ (state_quiet _ _ _ St')) as (r' & Er' & Ar'); try assumption.
    - apply Forall_app. split; [exact (fits_ok _ _ FT OKl)|]. constructor; [apply empty_part_ok|constructor].
    - apply free_empty. exact (fits_free _ _ _ _ _ _ FT Pl).
    - exists r'. split; [assumption|]. apply (proj1 (comes_empty _ _ _ _ _ _)) in Ar'. apply (proj1 (fits_comes _ _ _ _ _ _ FT)) in Ar'.
      assert (Al: comes_to P q s e r') by (destruct Hl as [->| ->]; [assumption|exact (proj1 (comes_empty _ _ _ _ _ _) Ar')]).
      exact (comes_alike _ _ _ _ _ _ Ar Al). }
  set (name := encode_chunk_dir st (st + cf_size cf)).
  assert (Fresh: ~ In name (map fst (f_dirs (d_fs w)))).
  { apply (state_fresh cf w P); [assumption|unfold u64; lia|unfold u64; lia|]. intros c Hc. specialize (SB c Hc). lia. }
  destruct (Nat.le_gt_cases 4 n) as [Ln|Ln].
  - (* the files of the completed swap *)
    destruct St as (l0 & c & A & h0 & d & El & D).
    assert (St1: state cf w (l0 ++ [(c, A)])) by (exists l0, c, A, h0, d; auto).
    assert (Hc: c_start c < st). { specialize (SB (c, A) ltac:(rewrite El; apply in_or_app; right; now left)). cbn [fst] in SB. lia. }
    destruct (swap_run cf w l0 c A st St1 Hc Hsz Hend) as (w1 & E1 & St2 & Tk1 & N1 & _). rewrite <- El in St2.
    assert (NH: ~ In name (map dc_name (d_heap w))).
    { destruct D as [D1 D2 D3 D4 D5 D6 D7 D8 D9 D10 D11 D12]. rewrite D1. rewrite <- (F2_fst _ dc_name _ _ (fun e d H => proj1 H) D11). exact Fresh. }
    unfold drun in E1.
    destruct (reopen_state cf w1 _ St2 S1 S2 Hb Ha Hsz) as (w2 & l' & ch & E2 & St3 & FT).
    { destruct N1 as (_ & -> & _). now rewrite Ec. } { destruct N1 as (_ & -> & _). rewrite Ec. exact Hcl. }
    { rewrite Tk1, Et. destruct N1 as (_ & -> & _). rewrite Ec. intros c' i Hc' Hi. specialize (Hclk i ltac:(lia)). apply in_app_or in Hc' as [Hc'|[<-|[]]].
      - specialize (SB c' Hc'). lia.
      - cbn [fst the_chunk c_start]. lia. }
    { apply Forall2_app; [assumption|]. constructor; [|constructor]. split; [reflexivity|]. split; [reflexivity|]. intros ls pts p []. }
    { rewrite Tk1, Et. destruct N1 as (_ & -> & _). rewrite Ec. intros p (c' & ls & pts & I1 & I2 & I3). apply in_app_or in I1 as [I1|[<-|[]]]; [|destruct I2].
      apply Hpts. red. eauto 8. }
    assert (SM: sim (stopped cf (snd (crash_at dhandler n (db_swap cf st) w))) (stopped cf w1)).
    { rewrite <- (crash_end dhandler _ _ _ _ E1 (4 + cost dhandler (db_swap cf st) w)) by lia.
      apply swap_sim; try assumption; lia. }
    destruct (sim_open cf _ _ _ _ SM E2) as (f' & E3 & SM').
    pose proof (sim_state _ _ _ _ St3 SM') as St4.
    destruct (Fin _ (P ++ [(the_chunk cf st, [])]) (the_chunk cf st) (or_intror eq_refl) (set_fs w2 f') ltac:(eauto) E3) as (r' & Er' & Pr).
    exists (outcomes cf t0 ops), w, r, (set_fs w2 f'), r'. auto.
  - (* nothing created *)
    assert (n = 0 \/ n = 1)%nat as Hn01 by (cbn [In] in Hn; lia).
    assert (W: exists f', snd (crash_at dhandler n (db_swap cf st) w) = set_fs w f' /\ (f' = d_fs w \/ f' = draw (d_fs w))).
    { destruct Hn01 as [-> | ->].
      - exists (d_fs w). split; [rewrite crash_0; destruct w; reflexivity|now left].
      - exists (draw (d_fs w)). split; [|now right]. unfold db_swap, create_chunk, qbind, call. cbn [bind lift crash_at dhandler]. reflexivity. }
    destruct W as (f' & W1 & W2).
    assert (SM: state cf (set_fs w f') P).
    { destruct St as (l0 & c & A & h0 & d & El & [D1 D2 D3 D4 D5 D6 D7 D8 D9 D10 D11 D12]).
      exists l0, c, A, h0, d. split; [exact El|]. constructor; try assumption; cbn [set_fs d_fs]; destruct W2 as [-> | ->]; assumption. }
    assert (Q1: f_clock f' = f_clock f) by (destruct W2 as [-> | ->]; exact Ec). assert (Q2: f_ticks f' = S (f_ticks f)) by (destruct W2 as [-> | ->]; exact Et).
    destruct (reopen_state cf (set_fs w f') P SM S1 S2 Hb Ha Hsz) as (w2 & l' & ch & E2 & St3 & FT); cbn [set_fs d_fs]; rewrite ?Q1, ?Q2; try assumption.
    { intros c i Hc Hi. specialize (Hclk i ltac:(lia)). specialize (SB c Hc). lia. }
    destruct (Fin _ P (the_chunk cf st) (or_introl eq_refl) w2 ltac:(eauto) E2) as (r' & Er' & Pr).
    exists (outcomes cf t0 ops), w, r, w2, r'. rewrite W1. auto.
Qed.
