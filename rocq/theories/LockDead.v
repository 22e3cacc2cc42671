(* No deadlock, whatever order the locks let the waiting threads through. *)
From Coq Require Import ZifyBool ZifyNat.
From Verif Require Import Rust Prog Gorilla Storage StorageSpec Labels Indexer IndexSpec Chunk ChunkSpec Utils TiKvInit Db DbSpec SwapSpec WritersSpec LockSpec LockProofs.
Local Notation length := List.length.

Definition cnt (H : list hold) (h : hold) : nat := count_occ hold_dec H h.
Definition b1 (b : bool) : nat := if b then 1%nat else 0%nat.
(* the locks are held as often as the threads say *)
Record counted (w : dworld) (C : hold -> nat) : Prop := mkC {
  n_curR : C HCurR = rw_readers (d_curl w);
  n_curW : C HCurW = b1 (rw_writer (d_curl w));
  n_secR : C HSecR = rw_readers (d_secl w);
  n_secW : C HSecW = b1 (rw_writer (d_secl w));
  n_chunk : forall i d, nth_error (d_heap w) i = Some d -> C (HCh i) = b1 (w_locked (dc_world d));
  n_none : forall i, (length (d_heap w) <= i)%nat -> C (HCh i) = O;
  n_cur : (d_cur w < length (d_heap w))%nat;
  n_sec : Forall (fun i => (i < length (d_heap w))%nat) (d_sec w) }.
Definition plus (C : hold -> nat) (H : list hold) (h : hold) : nat := (C h + cnt H h)%nat.
Lemma cnt_cons a H h : cnt (a :: H) h = (b1 (if hold_dec a h then true else false) + cnt H h)%nat.
Proof. unfold cnt. cbn [count_occ]. destruct (hold_dec a h); reflexivity. Qed.
Lemma length_upd {A} (l : list A) i x : length (upd l i x) = length l.
Proof.
  unfold upd. revert i. induction l as [|a l IH]; intros [|i]; try reflexivity. cbn [firstn skipn app length]. f_equal. exact (IH i).
Qed.
Lemma nth_upd_same {A} (l : list A) i x : (i < length l)%nat -> nth_error (upd l i x) i = Some x.
Proof. unfold upd. revert i. induction l as [|a l IH]; intros [|i] L; cbn [length] in L; try lia; [reflexivity|]. cbn [firstn skipn app nth_error]. apply IH. lia. Qed.
Lemma nth_upd_other {A} (l : list A) i j x : i <> j -> nth_error (upd l i x) j = nth_error l j.
Proof.
  unfold upd. revert i j. induction l as [|a l IH]; intros [|i] [|j] N; try reflexivity; try lia. cbn [firstn skipn app nth_error]. apply IH. lia.
Qed.
Lemma lookups_some h l : Forall (fun i => (i < length h)%nat) l -> exists cs, lookups h l = Some cs /\ Forall (fun c => (fst c < length h)%nat) cs.
Proof.
  induction 1 as [|i l L F (cs & E & FC)]; [exists []; split; [reflexivity|constructor]|]. cbn [lookups].
  destruct (nth_error h i) as [d|] eqn:N; [|apply nth_error_None in N; lia]. rewrite E. eexists. split; [reflexivity|]. now constructor.
Qed.
Lemma chunk_step {X} i (c : ccmd X) n H K C w d x cw : (i < n)%nat -> cneed i c n H K -> (n <= length (d_heap w))%nat -> counted w (plus C H) ->
  nth_error (d_heap w) i = Some d -> chandler (dc_chunk d) X c (dc_world d) = Some (x, cw) ->
  let w' := set_heap w (upd (d_heap w) i (mkDc (dc_chunk d) cw (dc_name d))) in
  exists H', K x (length (d_heap w')) H' /\ counted w' (plus C H').
Proof.
  intros Li N Ln Cn Nd E w'. assert (Lw: length (d_heap w') = length (d_heap w)) by apply length_upd.
  assert (G: forall H', (forall h, h <> HCh i -> cnt H' h = cnt H h) -> plus C H' (HCh i) = b1 (w_locked cw) -> counted w' (plus C H')).
  { intros H' E1 E2. destruct Cn as [c1 c2 c3 c4 c5 c6 c7 c8]. unfold plus in *. constructor; cbn [d_curl d_secl d_cur d_sec] in *; rewrite ?Lw; try assumption.
    - rewrite E1 by discriminate. exact c1.
    - rewrite E1 by discriminate. exact c2.
    - rewrite E1 by discriminate. exact c3.
    - rewrite E1 by discriminate. exact c4.
    - intros j dj. unfold w', set_heap. cbn [d_heap]. destruct (Nat.eq_dec i j) as [<-|Nj].
      + rewrite nth_upd_same by lia. intros [= <-]. exact E2.
      + rewrite nth_upd_other by assumption. intros Hj. rewrite E1 by congruence. now apply c5.
    - intros j Lj. rewrite E1 by (intros [= ->]; lia). now apply c6. }
  pose proof (n_chunk _ _ Cn i d Nd) as CI. unfold plus in CI.
  assert (S0: w_locked cw = w_locked (dc_world d) -> counted w' (plus C H)).
  { intros El. apply G; [reflexivity|]. rewrite El. exact CI. }
  destruct c; cbn [cneed chandler] in *.
  - exists H. split; [apply N; lia|apply S0]. destruct (kv_fault_handler _ _ _ _) as [[y [s fs]]|]; [|discriminate]. injection E as _ <-. reflexivity.
  - exists H. split; [apply N; lia|apply S0]. destruct (kv_fault_handler _ _ _ _) as [[y [s fs]]|]; [|discriminate]. injection E as _ <-. reflexivity.
  - exists H. split; [apply N; lia|apply S0]. injection E as _ <-. reflexivity.
  - destruct N as [_ N]. destruct (w_locked (dc_world d)) eqn:EL; [discriminate|]. injection E as _ <-. exists (HCh i :: H). split; [apply N; lia|].
    apply G; [intros h Nh; rewrite cnt_cons; destruct (hold_dec (HCh i) h); [congruence|reflexivity]|]. unfold plus. rewrite cnt_cons. destruct (hold_dec (HCh i) (HCh i)) as [_|F]; [|congruence].
    cbn [set_lock w_locked b1] in *. lia.
  - destruct N as (H' & -> & N). injection E as _ <-. exists H'. split; [apply N; lia|]. rewrite cnt_cons in CI. destruct (hold_dec (HCh i) (HCh i)) as [_|F]; [|congruence].
    apply G; [intros h Nh; rewrite cnt_cons; destruct (hold_dec (HCh i) h); [congruence|reflexivity]|]. unfold plus. cbn [set_lock w_locked b1] in *. destruct (w_locked (dc_world d)); cbn [b1] in CI; lia.
  - destruct N as [_ N]. destruct (w_locked (dc_world d)) eqn:EL; [discriminate|]. injection E as _ <-. exists H. split; [apply N; lia|]. apply S0. now rewrite EL.
  - exists H. split; [apply N; lia|apply S0]. injection E as _ <-. reflexivity.
  - exists H. split; [apply N; lia|apply S0]. injection E as _ <-. reflexivity.
Qed.
Ltac cdec := unfold plus in *; rewrite ?cnt_cons in *; repeat match goal with
  | |- context [if hold_dec ?a ?b then _ else _] => destruct (hold_dec a b); try congruence
  | H : context [if hold_dec ?a ?b then _ else _] |- _ => destruct (hold_dec a b); try congruence
  end; cbn [b1] in *.
Lemma cmd_step {X} (c : dcmd X) n H K C w x w' : need c n H K -> (n <= length (d_heap w))%nat -> counted w (plus C H) -> dhandler X c w = Some (x, w') ->
  (length (d_heap w) <= length (d_heap w'))%nat /\ exists m H', (m <= length (d_heap w'))%nat /\ K x m H' /\ counted w' (plus C H').
Proof.
  intros N Ln Cn E. destruct c; cbn [need dhandler] in *.
  - destruct N as [Li N]. destruct (nth_error (d_heap w) i) as [d|] eqn:Nd; [|discriminate]. destruct (chandler _ _ c (dc_world d)) as [[y cw]|] eqn:EC; [|discriminate].
    injection E as <- <-. destruct (chunk_step i c n H K C w d y cw Li N Ln Cn Nd EC) as (H' & HK & HC).
    split; [cbn [set_heap d_heap]; rewrite length_upd; lia|]. eexists _, H'. split; [|split; [exact HK|exact HC]]. lia.
  - destruct (fhandler _ c (d_fs w)) as [[y f]|]; [|discriminate]. injection E as <- <-. split; [cbn; lia|]. exists n, H. split; [exact Ln|]. split; [apply N; lia|].
    destruct Cn. constructor; assumption.
  - destruct N as [Hf N]. injection E as <- <-. cbn [set_heap d_heap]. rewrite app_length. cbn [length]. split; [lia|]. eexists (length (d_heap w) + 1)%nat, H.
    split; [lia|]. split; [apply N; lia|]. destruct Cn as [c1 c2 c3 c4 c5 c6 c7 c8]. constructor; cbn [set_heap d_heap d_cur d_sec d_curl d_secl] in *; try assumption.
    + intros j d Hj. destruct (Nat.lt_ge_cases j (length (d_heap w))) as [Lj|Lj].
      * rewrite nth_error_app1 in Hj by assumption. now apply c5.
      * rewrite nth_error_app2 in Hj by assumption. destruct (j - length (d_heap w))%nat as [|k] eqn:Ek; [|now destruct k]. cbn in Hj. injection Hj as <-. rewrite c6 by assumption. now rewrite Hf.
    + intros j Lj. apply c6. rewrite app_length in Lj. cbn in Lj. lia.
    + rewrite app_length. lia.
    + eapply Forall_impl; [|exact c8]. intros j Lj. rewrite app_length. cbn in *. lia.
  - destruct N as [_ N]. destruct (rw_read (d_curl w)) as [l|] eqn:ER; [|discriminate]. destruct (nth_error (d_heap w) (d_cur w)) as [d|] eqn:Nd; [|discriminate]. injection E as <- <-.
    split; [cbn; lia|]. exists (length (d_heap w)), (HCurR :: H). split; [cbn; lia|]. split; [apply N; [lia|]; cbn [fst snd]; apply (n_cur _ _ Cn)|].
    unfold rw_read in ER. destruct (rw_writer (d_curl w)) eqn:EW; [discriminate|]. injection ER as <-. destruct Cn as [c1 c2 c3 c4 c5 c6 c7 c8]. rewrite EW in c2.
    constructor; cbn [set_curl d_heap d_cur d_sec d_curl d_secl rw_readers rw_writer] in *; try assumption; cdec; try lia.
  - destruct N as (H' & -> & N). injection E as <- <-. split; [cbn; lia|]. exists n, H'. split; [cbn; lia|]. split; [apply N; lia|].
    destruct Cn as [c1 c2 c3 c4 c5 c6 c7 c8]. constructor; cbn [set_curl rw_unread d_heap d_cur d_sec d_curl d_secl rw_readers rw_writer] in *; try assumption; cdec; try lia.
  - destruct N as [_ N]. destruct (rw_write (d_curl w)) as [l|] eqn:ER; [|discriminate]. destruct (nth_error (d_heap w) (d_cur w)) as [d|] eqn:Nd; [|discriminate]. injection E as <- <-.
    split; [cbn; lia|]. exists (length (d_heap w)), (HCurW :: H). split; [cbn; lia|]. split; [apply N; [lia|]; cbn [fst snd]; apply (n_cur _ _ Cn)|].
    unfold rw_write in ER. destruct (rw_writer (d_curl w)) eqn:EW; [discriminate|]. destruct (Nat.eqb_spec (rw_readers (d_curl w)) 0) as [E0|]; [|discriminate]. cbn [orb negb] in ER. injection ER as <-.
    destruct Cn as [c1 c2 c3 c4 c5 c6 c7 c8]. rewrite EW in c2. rewrite E0 in c1.
    constructor; cbn [set_curl d_heap d_cur d_sec d_curl d_secl rw_readers rw_writer] in *; try assumption; cdec; try lia.
  - destruct N as [Li N]. injection E as <- <-. split; [cbn; lia|]. exists n, H. split; [cbn; lia|]. split; [apply N; lia|]. destruct Cn as [c1 c2 c3 c4 c5 c6 c7 c8]. constructor; try assumption. cbn. lia.
  - destruct N as (H' & -> & N). injection E as <- <-. split; [cbn; lia|]. exists n, H'. split; [cbn; lia|]. split; [apply N; lia|].
    destruct Cn as [c1 c2 c3 c4 c5 c6 c7 c8]. constructor; cbn [set_curl rw_unwrite d_heap d_cur d_sec d_curl d_secl rw_readers rw_writer] in *; try assumption; cdec; try lia.
    destruct (rw_writer (d_curl w)); cbn [b1] in c2; lia.
  - destruct N as [_ N]. destruct (rw_read (d_secl w)) as [l|] eqn:ER; [|discriminate]. destruct (lookups_some _ _ (n_sec _ _ Cn)) as (cs & EL & FC). rewrite EL in E. injection E as <- <-.
    split; [cbn; lia|]. exists (length (d_heap w)), (HSecR :: H). split; [cbn; lia|]. split; [apply N; [lia|exact FC]|].
    unfold rw_read in ER. destruct (rw_writer (d_secl w)) eqn:EW; [discriminate|]. injection ER as <-. destruct Cn as [c1 c2 c3 c4 c5 c6 c7 c8]. rewrite EW in c4.
    constructor; cbn [set_secl d_heap d_cur d_sec d_curl d_secl rw_readers rw_writer] in *; try assumption; cdec; try lia.
  - destruct N as (H' & -> & N). injection E as <- <-. split; [cbn; lia|]. exists n, H'. split; [cbn; lia|]. split; [apply N; lia|].
    destruct Cn as [c1 c2 c3 c4 c5 c6 c7 c8]. constructor; cbn [set_secl rw_unread d_heap d_cur d_sec d_curl d_secl rw_readers rw_writer] in *; try assumption; cdec; try lia.
  - destruct N as [_ N]. destruct (rw_write (d_secl w)) as [l|] eqn:ER; [|discriminate]. injection E as <- <-.
    split; [cbn; lia|]. exists (length (d_heap w)), (HSecW :: H). split; [cbn; lia|]. split; [apply N; lia|].
    unfold rw_write in ER. destruct (rw_writer (d_secl w)) eqn:EW; [discriminate|]. destruct (Nat.eqb_spec (rw_readers (d_secl w)) 0) as [E0|]; [|discriminate]. cbn [orb negb] in ER. injection ER as <-.
    destruct Cn as [c1 c2 c3 c4 c5 c6 c7 c8]. rewrite EW in c4. rewrite E0 in c3.
    constructor; cbn [set_secl d_heap d_cur d_sec d_curl d_secl rw_readers rw_writer] in *; try assumption; cdec; try lia.
  - destruct N as [Li N]. injection E as <- <-. split; [cbn; lia|]. exists n, H. split; [cbn; lia|]. split; [apply N; lia|]. destruct Cn as [c1 c2 c3 c4 c5 c6 c7 c8]. constructor; try assumption.
    cbn [set_sec d_sec d_heap]. apply Forall_app. split; [exact c8|]. constructor; [cbn; lia|constructor].
  - destruct N as (H' & -> & N). injection E as <- <-. split; [cbn; lia|]. exists n, H'. split; [cbn; lia|]. split; [apply N; lia|].
    destruct Cn as [c1 c2 c3 c4 c5 c6 c7 c8]. constructor; cbn [set_secl rw_unwrite d_heap d_cur d_sec d_curl d_secl rw_readers rw_writer] in *; try assumption; cdec; try lia.
    destruct (rw_writer (d_secl w)); cbn [b1] in c4; lia.
Qed.

(** ** commands that can be performed *)
Lemma chunk_goes {X} (c : ccmd X) ch cw : (match c with CWriteLock | CReadPass => w_locked cw = false | _ => True end) -> exists x cw', chandler ch X c cw = Some (x, cw').
Proof.
  destruct c; cbn [chandler]; intros L; try (eexists _, _; reflexivity).
  - destruct c; cbn [kv_fault_handler]; [|destruct (hd Works (w_faults cw))]; eexists _, _; reflexivity.
  - destruct c; cbn [kv_fault_handler]; [|destruct (hd Works (w_faults cw))]; eexists _, _; reflexivity.
  - rewrite L. eexists _, _. reflexivity.
  - rewrite L. eexists _, _. reflexivity.
Qed.
Lemma goes {X} (c : dcmd X) n H K C w : need c n H K -> (n <= length (d_heap w))%nat -> counted w C ->
  (forall l, asks_for c = Some l -> is_free w l) -> exists x w', dhandler X c w = Some (x, w').
Proof.
  intros N Ln Cn F. destruct c; cbn [need dhandler asks_for] in *; try (eexists _, _; reflexivity).
  - destruct N as [Li _]. destruct (nth_error (d_heap w) i) as [d|] eqn:Nd; [|apply nth_error_None in Nd; lia].
    destruct (chunk_goes c (dc_chunk d) (dc_world d)) as (x & cw & E).
    { destruct c; try exact I; destruct (F _ eq_refl) as (d' & Nd' & L); congruence. }
    rewrite E. eexists _, _. reflexivity.
  - destruct c; cbn [fhandler]; try (eexists _, _; reflexivity).
    all: destruct (hd false (f_faults (d_fs w))); eexists _, _; reflexivity.
  - destruct (F _ eq_refl) as [F1 F2]. unfold rw_read. rewrite F2. destruct (nth_error (d_heap w) (d_cur w)) as [d|] eqn:Nd; [eexists _, _; reflexivity|]. apply nth_error_None in Nd. pose proof (n_cur _ _ Cn). lia.
  - destruct (F _ eq_refl) as [F1 F2]. unfold rw_write. rewrite F2, F1. destruct (nth_error (d_heap w) (d_cur w)) as [d|] eqn:Nd; [eexists _, _; reflexivity|]. apply nth_error_None in Nd. pose proof (n_cur _ _ Cn). lia.
  - destruct (F _ eq_refl) as [F1 F2]. unfold rw_read. rewrite F2. destruct (lookups_some _ _ (n_sec _ _ Cn)) as (cs & -> & _). eexists _, _; reflexivity.
  - destruct (F _ eq_refl) as [F1 F2]. unfold rw_write. rewrite F2, F1. eexists _, _; reflexivity.
Qed.
(* what a thread asks for is above what it holds *)
Lemma asks_above {X} (c : dcmd X) n H K l : need c n H K -> asks_for c = Some l -> below (rank l) H /\ (forall i, l = LChunk i -> (i < n)%nat).
Proof.
  destruct c; cbn [need asks_for]; try discriminate; try (intros [B _] [= <-]; split; [exact B|discriminate]).
  destruct c; try discriminate; intros [L [B _]] [= <-]; (split; [exact B|intros j [= <-]; exact L]).
Qed.

(** ** one thread alone *)
Lemma wp_run {A} (p : prog dcmd A) : forall n H Q C w a w', wp p n H Q -> (n <= length (d_heap w))%nat -> counted w (plus C H) -> drun p w = Some (a, w') ->
  exists m H', Q a m H' /\ counted w' (plus C H').
Proof.
  unfold drun. induction p as [a0|X c k IH]; intros n H Q C w a w' W Ln Cn E; cbn [wp run] in *.
  - injection E as <- <-. exists n, H. now split.
  - destruct (dhandler X c w) as [[x w1]|] eqn:E1; [|discriminate]. destruct (cmd_step c n H _ C w x w1 W Ln Cn E1) as (_ & m & H' & Lm & W' & C').
    exact (IH x m H' Q C w1 a w' W' Lm C' E).
Qed.
Definition nobody : hold -> nat := fun _ => O.
Lemma counted_ext w C C' : (forall h, C h = C' h) -> counted w C -> counted w C'.
Proof.
  intros E [c1 c2 c3 c4 c5 c6 c7 c8]. constructor; try assumption; rewrite <- ?E; try assumption.
  - intros i d Hi. rewrite <- E. now apply c5.
  - intros i Hi. rewrite <- E. now apply c6.
Qed.
Lemma open_counted cf f w : db_open cf f = Some (Ok tt, w) -> counted w nobody.
Proof.
  unfold db_open. destruct (run fhandler (db_new cf) f) as [[[[old cur]|e|] f']|] eqn:E; try discriminate. intros [= <-].
  pose proof (rets_run fhandler _ _ _ _ _ (new_fresh cf) E) as F. unfold opened. cbn [fst snd] in *.
  constructor; try reflexivity; cbn [d_heap d_cur d_sec].
  - intros i d Hi. rewrite Forall_forall in F. apply nth_error_In in Hi. now rewrite (F _ Hi).
  - rewrite app_length. cbn. lia.
  - rewrite Forall_forall. intros i Hi. apply in_seq in Hi. rewrite app_length. cbn. lia.
Qed.
Lemma clean_run {A} (p : prog dcmd A) w a w' : clean p -> counted w nobody -> drun p w = Some (a, w') -> counted w' nobody.
Proof.
  intros W Cn E. destruct (wp_run p 0 [] _ nobody w a w' (W O) ltac:(lia) (counted_ext _ _ _ (fun h => eq_sym (Nat.add_0_r _)) Cn) E) as (m & H' & -> & C').
  apply (counted_ext _ _ _ (fun h => Nat.add_0_r _) C').
Qed.
Lemma op_clean cf o : clean (dop_prog cf o).
Proof.
  intros n. destruct o as [ls p|ls pts|s]; cbn [dop_prog]; (eapply wp_mono; [|first [apply wp_point | apply wp_points | apply wp_swap]]); intros a m H' [_ ->]; reflexivity.
Qed.
Lemma after_counted cf ops : forall w rs w', counted w nobody -> db_after_from cf ops w = Some (rs, w') -> counted w' nobody.
Proof.
  induction ops as [|o ops IH]; intros w rs w' Cn E; cbn [db_after_from] in E; [injection E as _ <-; exact Cn|].
  destruct (drun (dop_prog cf o) w) as [[r w1]|] eqn:E1; [|discriminate]. destruct (db_after_from cf ops w1) as [[rs1 w2]|] eqn:E2; [|discriminate]. injection E as _ <-.
  exact (IH _ _ _ (clean_run _ _ _ _ (op_clean cf o) Cn E1) E2).
Qed.

(** ** threads *)
Record inv {A} (ts : list (prog dcmd A)) (w : dworld) (Hs : list (list hold)) : Prop := mkI {
  i_len : length Hs = length ts;
  i_wp : forall i p H, nth_error ts i = Some p -> nth_error Hs i = Some H -> exists n, (n <= length (d_heap w))%nat /\ wp p n H (fun _ _ H' => H' = []);
  i_cnt : counted w (cnt (concat Hs)) }.
Lemma inv_init {A} (ts : list (prog dcmd A)) w : Forall clean ts -> counted w nobody -> inv ts w (repeat [] (length ts)).
Proof.
  intros F Cn. constructor.
  - apply repeat_length.
  - intros i p H Hp HH. apply nth_error_In, repeat_spec in HH. subst H. apply nth_error_In in Hp. rewrite Forall_forall in F. exists O. split; [lia|]. now apply F.
  - eapply counted_ext; [|exact Cn]. intros h. replace (concat (repeat [] (length ts))) with (@nil hold); [reflexivity|]. induction (length ts); [reflexivity|]. exact IHn.
Qed.
Lemma upd_parts {A} (l1 l2 : list A) x y : upd (l1 ++ x :: l2) (length l1) y = l1 ++ y :: l2.
Proof. unfold upd. rewrite firstn_app, Nat.sub_diag, firstn_all, skipn_app, skipn_all, Nat.sub_diag. cbn [firstn skipn app]. now rewrite app_nil_r. Qed.
Lemma inv_step {A} (ts : list (prog dcmd A)) w Hs i p p' w' : inv ts w Hs -> nth_error ts i = Some p -> step dhandler p w = Some (p', w') -> exists Hs', inv (upd ts i p') w' Hs'.
Proof.
  intros [I1 I2 I3] Ni E. destruct (nth_error Hs i) as [H|] eqn:NH; [|apply nth_error_None in NH; assert (i < length ts)%nat by (apply nth_error_Some; congruence); lia].
  destruct (I2 i p H Ni NH) as (n & Ln & W). destruct p as [a|X c k]; cbn [step] in E; [discriminate|]. destruct (dhandler X c w) as [[x w1]|] eqn:E1; [|discriminate]. injection E as <- <-.
  destruct (nth_error_split Hs i NH) as (H1 & H2 & EH & L1).
  assert (Q: forall HH h, cnt (concat (H1 ++ HH :: H2)) h = plus (cnt (concat H1 ++ concat H2)) HH h).
  { intros HH h. unfold plus, cnt. rewrite concat_app. cbn [concat]. rewrite !count_occ_app. lia. }
  cbn [wp] in W. destruct (cmd_step c n H _ (cnt (concat H1 ++ concat H2)) w x w1 W Ln) as (Lw & m & H' & Lm & W' & C').
  { eapply counted_ext; [|exact I3]. intros h. rewrite EH. apply Q. }
  { exact E1. }
  exists (H1 ++ H' :: H2). constructor.
  - rewrite length_upd, <- I1, EH, !app_length. reflexivity.
  - intros j q Hq Nq NHq. destruct (Nat.eq_dec i j) as [<-|Nj].
    + rewrite nth_upd_same in Nq by (apply nth_error_Some; congruence). injection Nq as <-. rewrite <- L1, nth_error_app2, Nat.sub_diag in NHq by lia. injection NHq as <-. exists m. now split.
    + rewrite nth_upd_other in Nq by assumption. assert (NH': nth_error Hs j = Some Hq).
      { rewrite EH. destruct (Nat.lt_ge_cases j (length H1)) as [Lj|Lj].
        - rewrite nth_error_app1 in * by assumption. exact NHq.
        - rewrite nth_error_app2 in * by assumption. destruct (j - length H1)%nat as [|k'] eqn:Ek; [lia|]. exact NHq. }
      destruct (I2 j q Hq Nq NH') as (n' & Ln' & W2). exists n'. split; [lia|exact W2].
  - eapply counted_ext; [|exact C']. intros h. symmetry. apply Q.
Qed.
(* a lock that nobody holds is free *)
Lemma unheld_free {A} (ts : list (prog dcmd A)) w Hs l : inv ts w Hs -> (forall i, l = LChunk i -> (i < length (d_heap w))%nat) ->
  (forall h, In h (concat Hs) -> (level h < rank l)%nat) -> is_free w l.
Proof.
  intros [_ _ [c1 c2 c3 c4 c5 c6 c7 c8]] L F.
  assert (Z: forall h, level h = rank l -> cnt (concat Hs) h = O).
  { intros h E. apply count_occ_not_In. intros Hin. specialize (F h Hin). lia. }
  destruct l as [| |i]; cbn [is_free rank] in *.
  - rewrite Z in c1, c2 by reflexivity. split; [now rewrite <- c1|]. destruct (rw_writer (d_curl w)); [discriminate|reflexivity].
  - rewrite Z in c3, c4 by reflexivity. split; [now rewrite <- c3|]. destruct (rw_writer (d_secl w)); [discriminate|reflexivity].
  - destruct (nth_error (d_heap w) i) as [d|] eqn:Nd; [|apply nth_error_None in Nd; specialize (L i eq_refl); lia]. exists d. split; [reflexivity|].
    specialize (c5 i d Nd). rewrite Z in c5 by reflexivity. destruct (w_locked (dc_world d)); [discriminate|reflexivity].
Qed.
Definition can {A} (g : policy A) past ts w : Prop := exists i ts' w', move g past ts w i = Some (ts', w').
Lemma free_goes {A} (g : policy A) past ts w Hs l i p : lets_someone g -> inv ts w Hs -> is_free w l -> nth_error ts i = Some p -> waits_for p = Some l -> can g past ts w.
Proof.
  intros G I F Ni Wi. destruct (G past ts w l i p F Ni Wi) as (j & q & Nj & Wj & Gj). destruct I as [I1 I2 I3].
  destruct (nth_error Hs j) as [H|] eqn:NH; [|apply nth_error_None in NH; assert (j < length ts)%nat by (apply nth_error_Some; congruence); lia].
  destruct (I2 j q H Nj NH) as (n & Ln & W). destruct q as [a|X c k]; [discriminate|]. cbn [wp waits_for] in *.
  destruct (goes c n H _ _ w W Ln I3) as (x & w' & E). { intros l' E. assert (l' = l) as -> by congruence. exact F. }
  exists j, (upd ts j (k x)), w'. unfold move. rewrite Nj. cbn [waits_for step]. now rewrite Wj, Gj, E.
Qed.
Lemma top {A} (f : A -> nat) (l : list A) : l <> [] -> exists x, In x l /\ forall y, In y l -> (f y <= f x)%nat.
Proof.
  induction l as [|a l IH]; [congruence|]. intros _. destruct l as [|b l]; [exists a; split; [now left|]; intros y [<-|[]]; lia|].
  destruct (IH ltac:(discriminate)) as (x & Hx & M). destruct (Nat.le_gt_cases (f x) (f a)) as [L|L].
  - exists a. split; [now left|]. intros y [<-|Hy]; [lia|]. specialize (M y Hy). lia.
  - exists x. split; [now right|]. intros y [<-|Hy]; [lia|]. now apply M.
Qed.
Theorem no_deadlock {A} (g : policy A) past ts w Hs : lets_someone g -> inv ts w Hs -> (exists p, In p ts /\ ~ finished p) -> can g past ts w.
Proof.
  intros G I (p0 & Hin & NF).
  (* a thread that is not finished, such that nobody holds what it asks for *)
  assert (P: exists i p H, nth_error ts i = Some p /\ ~ finished p /\ nth_error Hs i = Some H /\ (concat Hs = [] \/ exists h, In h H /\ forall h', In h' (concat Hs) -> (level h' <= level h)%nat)).
  { destruct (concat Hs) as [|h0 hs] eqn:EC.
    - apply In_nth_error in Hin as (i & Ni). destruct (nth_error Hs i) as [H|] eqn:NH; [|apply nth_error_None in NH; rewrite (i_len _ _ _ I) in NH; apply nth_error_None in NH; congruence].
      exists i, p0, H. repeat split; try assumption. now left.
    - destruct (top level (concat Hs)) as (h & Hh & M); [rewrite EC; discriminate|]. rewrite EC in M.
      apply in_concat in Hh as (H & HH & Hh). apply In_nth_error in HH as (i & NH). destruct (nth_error ts i) as [p|] eqn:Ni; [|apply nth_error_None in Ni; rewrite <- (i_len _ _ _ I) in Ni; apply nth_error_None in Ni; congruence].
      exists i, p, H. repeat split; try assumption; [|right; exists h; now split]. intros [a ->]. destruct (i_wp _ _ _ I i _ H Ni NH) as (n & _ & W). cbn [wp] in W. subst H. destruct Hh. }
  destruct P as (i & p & H & Ni & Np & NH & T). destruct (i_wp _ _ _ I i p H Ni NH) as (n & Ln & W). destruct p as [a|X c k]; [exfalso; apply Np; now exists a|]. cbn [wp] in W.
  destruct (asks_for c) as [l|] eqn:EA.
  - destruct (asks_above c n H _ l W EA) as [B L]. apply (free_goes g past ts w Hs l i (Do c k) G I); [|exact Ni|exact EA].
    apply (unheld_free ts w Hs l I); [intros j E; specialize (L j E); lia|]. intros h Hh. destruct T as [T|(h1 & Hh1 & M)]; [rewrite T in Hh; destruct Hh|].
    unfold below in B. rewrite Forall_forall in B. specialize (B h1 Hh1). specialize (M h Hh). cbn beta in *. lia.
  - destruct (goes c n H _ _ w W Ln (i_cnt _ _ _ I)) as (x & w' & E); [intros l E; congruence|]. exists i, (upd ts i (k x)), w'. unfold move. rewrite Ni. cbn [waits_for step]. now rewrite EA, E.
Qed.

(** ** every run ends *)
Definition child {A} (q p : prog dcmd A) : Prop := match p with Ret _ => False | Do c k => exists x, q = k x end.
Lemma child_wf {A} : well_founded (@child A).
Proof. intros p. induction p as [a|X c k IH]; constructor; intros q; cbn [child]; [contradiction|]. intros (x & ->). apply IH. Qed.
Definition later {A} (ts' ts : list (prog dcmd A)) : Prop := exists i p p', nth_error ts i = Some p /\ child p' p /\ ts' = upd ts i p'.
Lemma later_wf {A} : well_founded (@later A).
Proof.
  intros ts. induction ts as [|p ts IH]; [constructor; intros ts' (i & p & p' & N & _); destruct i; discriminate|].
  revert ts IH. induction (child_wf p) as [p _ IHp]. intros ts At. induction At as [ts At' IHt]. constructor. intros ts' (i & q & q' & N & Cq & ->). destruct i as [|i]; cbn [nth_error] in N.
  - injection N as ->. change (upd (q :: ts) 0 q') with (q' :: ts). apply (IHp q' Cq). constructor. exact At'.
  - change (upd (p :: ts) (S i) q') with (p :: upd ts i q'). apply IHt. now exists i, q, q'.
Qed.
Lemma move_later {A} (g : policy A) past ts w i ts' w' : move g past ts w i = Some (ts', w') -> later ts' ts /\ exists p p', nth_error ts i = Some p /\ step dhandler p w = Some (p', w') /\ ts' = upd ts i p'.
Proof.
  unfold move. destruct (nth_error ts i) as [p|] eqn:N; [|discriminate]. destruct (match waits_for p with Some _ => _ | None => true end); [|discriminate].
  destruct (step dhandler p w) as [[p' w1]|] eqn:E; [|discriminate]. intros [= <- <-]. split.
  - exists i, p, p'. split; [exact N|]. split; [|reflexivity]. destruct p as [a|X c k]; cbn [step child] in *; [discriminate|]. destruct (dhandler X c w) as [[x w2]|]; [|discriminate]. injection E as <- _. now exists x.
  - exists p, p'. repeat split. exact E.
Qed.
Lemma obeying_app {A} (g : policy A) s1 : forall past s2 ts w, obeying g past (s1 ++ s2) ts w = let '(ts', w') := obeying g past s1 ts w in obeying g (past ++ s1) s2 ts' w'.
Proof.
  induction s1 as [|i s1 IH]; intros past s2 ts w; cbn [app obeying]; [now rewrite app_nil_r|].
  destruct (move g past ts w i) as [[ts' w']|]; rewrite IH, <- app_assoc; reflexivity.
Qed.
Lemma obeying_inv {A} (g : policy A) sched : forall past ts w Hs, inv ts w Hs -> exists Hs', inv (fst (obeying g past sched ts w)) (snd (obeying g past sched ts w)) Hs'.
Proof.
  induction sched as [|i sched IH]; intros past ts w Hs I; cbn [obeying]; [now exists Hs|]. destruct (move g past ts w i) as [[ts' w']|] eqn:E; [|now apply (IH _ _ _ Hs)].
  destruct (move_later _ _ _ _ _ _ _ E) as (_ & p & p' & N & S & ->). destruct (inv_step _ _ _ _ _ _ _ I N S) as (Hs' & I'). now apply (IH _ _ _ Hs').
Qed.
Lemma fin_dec {A} (ts : list (prog dcmd A)) : (forall p, In p ts -> finished p) \/ exists p, In p ts /\ ~ finished p.
Proof.
  induction ts as [|p ts IH]; [left; intros p []|]. destruct p as [a|X c k].
  - destruct IH as [IH|(q & Hq & N)]; [left; intros q [<-|Hq]; [now exists a|now apply IH]|right; exists q; split; [now right|exact N]].
  - right. exists (Do c k). split; [now left|]. intros [a E]. discriminate.
Qed.
Theorem can_finish {A} (g : policy A) : lets_someone g -> forall ts, Acc later ts -> forall past w Hs, inv ts w Hs -> exists more, forall p, In p (fst (obeying g past more ts w)) -> finished p.
Proof.
  intros G. induction 1 as [ts _ IH]. intros past w Hs I. destruct (fin_dec ts) as [F|U]; [exists []; exact F|].
  destruct (no_deadlock g past ts w Hs G I U) as (i & ts' & w' & M). destruct (move_later _ _ _ _ _ _ _ M) as (L & p & p' & N & S & E). subst ts'.
  destruct (inv_step _ _ _ _ _ _ _ I N S) as (Hs' & I'). destruct (IH _ L (past ++ [i]) w' Hs' I') as (more & F). exists (i :: more). cbn [obeying]. now rewrite M.
Qed.
(* the first n choices of an endless schedule *)
Lemma ends {A} (g : policy A) (s : nat -> nat) : forall ts, Acc later ts -> forall past w, exists n,
  let '(ts', w') := obeying g past (map s (seq 0 n)) ts w in move g (past ++ map s (seq 0 n)) ts' w' (s n) = None.
Proof.
  intros ts Ac. revert s. induction Ac as [ts _ IH]. intros s past w. destruct (move g past ts w (s O)) as [[ts' w']|] eqn:M.
  - destruct (move_later _ _ _ _ _ _ _ M) as (L & _). destruct (IH _ L (fun n => s (S n)) (past ++ [s O]) w') as (n & Hn). exists (S n). cbn [seq map obeying].
    rewrite M. rewrite <- seq_shift, map_map. rewrite <- app_assoc in Hn. exact Hn.
  - exists O. cbn [seq map obeying]. now rewrite app_nil_r.
Qed.
(* what happens under a policy happens in some interleaving *)
Lemma obeying_some {A} (g : policy A) sched : forall past ts w, exists sched', obeying g past sched ts w = interleave dhandler sched' ts w /\ (length sched' <= length sched)%nat.
Proof.
  induction sched as [|i sched IH]; intros past ts w; cbn [obeying]; [exists []; split; [reflexivity|lia]|]. destruct (move g past ts w i) as [[ts' w']|] eqn:M.
  - destruct (IH (past ++ [i]) ts' w') as (s' & E & L). exists (i :: s'). split; [|cbn; lia]. cbn [interleave]. destruct (move_later _ _ _ _ _ _ _ M) as (_ & p & p' & -> & -> & ->). exact E.
  - destruct (IH (past ++ [i]) ts w) as (s' & E & L). exists s'. split; [exact E|cbn; lia].
Qed.

(** ** the threads of a database *)
Section Threads.
  Context (cf : config) (f : fworld) (w0 : dworld) (ops : list dop) (rs0 : list (res unit)) (w : dworld).
  Hypothesis Ho : db_open cf f = Some (Ok tt, w0).
  Hypothesis Ha : db_after_from cf ops w0 = Some (rs0, w).
  Lemma start_inv starts cs qs : exists Hs, inv (threads cf starts cs qs) w Hs.
  Proof. eexists. apply inv_init; [apply threads_clean|]. exact (after_counted _ _ _ _ _ (open_counted _ _ _ Ho) Ha). Qed.
  Theorem db_never_stuck starts cs qs g sched : lets_someone g ->
    let '(ts, w') := obeying g [] sched (threads cf starts cs qs) w in
    (forall p, In p ts -> finished p) \/ exists i ts' w'', move g sched ts w' i = Some (ts', w'').
  Proof.
    intros G. destruct (start_inv starts cs qs) as (Hs & I). destruct (obeying_inv g sched [] _ _ Hs I) as (Hs' & I'). destruct (obeying g [] sched (threads cf starts cs qs) w) as [ts w'].
    destruct (fin_dec ts) as [F|U]; [now left|right]. exact (no_deadlock g sched ts w' Hs' G I' U).
  Qed.
  Theorem db_can_finish starts cs qs g sched : lets_someone g -> exists more, forall p, In p (fst (obeying g [] (sched ++ more) (threads cf starts cs qs) w)) -> finished p.
  Proof.
    intros G. destruct (start_inv starts cs qs) as (Hs & I). destruct (obeying_inv g sched [] _ _ Hs I) as (Hs' & I').
    destruct (obeying g [] sched (threads cf starts cs qs) w) as [ts w'] eqn:E. destruct (can_finish g G ts (later_wf ts) sched w' Hs' I') as (more & F). exists more.
    rewrite obeying_app, E. exact F.
  Qed.
End Threads.

(** ** policies *)
Lemma lock_eqb_spec a b : lock_eqb a b = true <-> a = b.
Proof. destruct a, b; cbn [lock_eqb]; split; intros H; try congruence; [apply Nat.eqb_eq in H; now subst|injection H as ->; apply Nat.eqb_refl]. Qed.
Lemma writer_waits {A} (p : prog dcmd A) l : asks_to_write p = Some l -> waits_for p = Some l.
Proof. destruct p as [a|X c k]; [discriminate|]. cbn [asks_to_write waits_for]. destruct c; try discriminate; [|exact (fun x => x)|exact (fun x => x)]. destruct c; try discriminate. exact (fun x => x). Qed.
Lemma writers_first_ok {A} : lets_someone (@writers_first A).
Proof.
  intros past ts w l i p _ Ni Wi. destruct (existsb (fun q => same_lock (asks_to_write q) (Some l)) ts) eqn:E.
  - apply existsb_exists in E as (q & Hq & E). apply In_nth_error in Hq as (j & Nj). destruct (asks_to_write q) as [l'|] eqn:Eq; [|discriminate]. cbn [same_lock] in E. apply lock_eqb_spec in E. subst l'.
    exists j, q. split; [exact Nj|]. split; [now apply writer_waits|]. unfold writers_first. now rewrite Nj, Eq.
  - exists i, p. split; [exact Ni|]. split; [exact Wi|]. unfold writers_first. rewrite Ni. destruct (asks_to_write p) as [l'|] eqn:Ep; [reflexivity|]. now rewrite Wi, E.
Qed.
Lemma lowest_first_ok {A} : lets_someone (@lowest_first A).
Proof.
  intros past ts w l i. induction i as [i IH] using lt_wf_ind. intros p F Ni Wi. destruct (existsb (fun q => same_lock (waits_for q) (Some l)) (firstn i ts)) eqn:E.
  - apply existsb_exists in E as (q & Hq & E). apply In_nth_error in Hq as (j & Nj). assert (Lj: (j < i)%nat).
    { assert (j < length (firstn i ts))%nat by (apply nth_error_Some; congruence). rewrite firstn_length in H. lia. }
    assert (Nj': nth_error ts j = Some q). { rewrite <- (firstn_skipn i ts), nth_error_app1; [exact Nj|]. apply nth_error_Some. congruence. }
    destruct (waits_for q) as [l'|] eqn:Eq; [|discriminate]. cbn [same_lock] in E. apply lock_eqb_spec in E. subst l'. exact (IH j Lj q F Nj' Eq).
  - exists i, p. split; [exact Ni|]. split; [exact Wi|]. unfold lowest_first. now rewrite Ni, Wi, E.
Qed.
