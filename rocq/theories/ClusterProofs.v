(* Proofs: several processes over one TiKV. *)
From Coq Require Import ZifyBool ZifyNat Permutation.
From Verif Require Import Rust StringProofs BitsProofs Prog Gorilla GorillaSpec Storage StorageSpec StorageProofs Labels IndexSpec Indexer
  LabelProofs IndexProofs Chunk ChunkSpec ChunkProofs ChunkFacts Conc Utils DirSpec DirProofs TiKvInit TiKvShared TiKvSpec TiKvProofs
  Db DbSpec MapProofs DbProofs DbHist DbFacts SwapProofs ReopenSpec ReopenProofs RangeSpec RangeProofs TiKvDb TiKvDbSpec TiKvDbRun TiKvDbChunk TiKvDbProofs TiKvDbMain
  Cluster ClusterSpec.

(** ** one process among others *)
Lemma upd_self' {A} (l : list A) i x : nth_error l i = Some x -> upd l i x = l.
Proof. unfold upd. revert i. induction l as [|a l IH]; intros [|i] H; try discriminate; cbn [firstn skipn app nth_error] in *; [congruence|]. f_equal. now apply IH. Qed.
Lemma run_dir {A} i (p : prog tcmd A) : forall C o db, nth_error (cl_dbs C) i = Some (o, db) ->
  run clhandler (at_dir i p) C =
  match run thandler p (mkT db (cl_kv C)) with
  | Some (a, t) => Some (a, mkCl (upd (cl_dbs C) i (o, t_db t)) (t_kv t))
  | None => None
  end.
Proof.
  induction p as [a|X c k IH]; intros C o db N; unfold at_dir in *; cbn [lift run].
  - cbn [t_db t_kv]. rewrite upd_self' by assumption. now destruct C.
  - cbn [clhandler]. rewrite N. destruct (thandler X c (mkT db (cl_kv C))) as [[x t]|]; [|reflexivity].
    assert (L: (i < length (cl_dbs C))%nat) by (apply nth_error_Some; congruence).
    rewrite (IH x _ o (t_db t)) by (cbn [cl_dbs]; rewrite nth_upd by assumption; now rewrite Nat.eqb_refl). cbn [cl_dbs cl_kv].
    assert (mkT (t_db t) (t_kv t) = t) as -> by now destruct t.
    destruct (run thandler (k x) t) as [[a t']|]; [|reflexivity]. now rewrite upd_upd.
Qed.

(** ** what others do does not disturb *)
Definition same_own (f : fworld) (s s' : kv) : Prop := forall m r, kv_get s' (f_uuid f m ++ r) = kv_get s (f_uuid f m ++ r).
Lemma disk_frame f s s' n last T T' : disk f s n last T -> same_own f s s' -> holds_series (TiKvStorage []) s' T' -> (forall i, increasing (T' i)) ->
  disk f s' n last T'.
Proof.
  intros [D1 D2 D3 D4 D5 D6 D7 D8] K H1 H2. constructor; try assumption.
  - intros m r Hm. rewrite K. now apply D3.
  - intros m x r Hx. rewrite K. now apply D4.
  - eapply Forall_impl; [|exact D6]. intros e (a & b & o & k & m & E1 & E2 & E3 & E4 & E5 & E6 & E7 & E8 & E9).
    exists a, b, o, k, m. do 7 (split; [assumption|]). split; [|assumption]. rewrite <- (app_nil_r (f_uuid f k)), K, app_nil_r. exact E8.
Qed.
Lemma running_frame cf db s s' d start n T' : running cf (mkT db s) d start n -> same_own (d_fs db) s s' ->
  holds_series (TiKvStorage []) s' T' -> (forall i, increasing (T' i)) -> running cf (mkT db s') (with_table d T') start n.
Proof.
  intros (h0 & dc & mc & re & [H1 H2 H3 H4 H5 H6 H7 H8 H9 H10 H11 H12 H13 H14 H15 H16]) K A1 A2. exists h0, dc, mc, re.
  cbn [t_db t_kv] in *. constructor; cbn [t_db t_kv with_table sh_old sh_cur sh_sets sh_tab]; try assumption.
  - eapply disk_frame; eassumption.
  - eapply F2_impl; [|exact H10]. intros x c (si & j & tail & lo & hi & E1 & E2 & E3 & E4 & E5 & E6 & E7).
    exists si, j, tail, lo, hi. do 5 (split; [assumption|]). split; [|assumption]. eapply rep_agree; [|exact E6]. intros r. rewrite <- app_assoc. apply K.
  - destruct H15 as [B1 B2 B3 B4 B5 B6 B7 B8].
    constructor; try assumption; cbn [twice enter set_st set_ix w_st w_ix w_next w_locked w_poisoned w_faults] in *; try assumption.
    eapply rep_agree; [|exact B1]. intros r. rewrite <- app_assoc. apply K.
Qed.
Lemma running_table cf t d start n : running cf t d start n -> holds_series (TiKvStorage []) (t_kv t) (sh_tab d) /\ forall i, increasing (sh_tab d i).
Proof. intros R. apply disk_running in R as [D _]. split; apply D. Qed.
Lemma with_same d : with_table d (sh_tab d) = d.
Proof. now destruct d. Qed.
Lemma with_twice d T T' : with_table (with_table d T) T' = with_table d T'.
Proof. reflexivity. Qed.

(** ** the directories and what they amount to *)
Record sits (f : fworld) (s : kv) (T : table) (left : nat) (x : seat) (y : option config * dworld) : Prop := mkSits {
  si_clock : f_clock (d_fs (snd y)) = se_clock x;
  si_tick : f_ticks (d_fs (snd y)) = se_tick x;
  si_uuid : f_uuid (d_fs (snd y)) = f_uuid f;
  si_db : match se_db x with
          | None => fst y = None /\ disk (d_fs (snd y)) s (se_dirs x) (se_last x) T /\ f_meta (d_fs (snd y)) = None
          | Some (cf, d) => fst y = Some cf /\ running cf (mkT (snd y) s) (with_table d T) (se_last x) (se_dirs x) /\
              Z.of_nat (length (sh_sets d) + left) < 2 ^ 64 - 1
          end }.
Definition all_sit (fs : list fworld) (C : cluster) (X : list seat) (T : table) (left : nat) : Prop :=
  length (cl_dbs C) = length fs /\ length X = length fs /\
  forall i f x y, nth_error fs i = Some f -> nth_error X i = Some x -> nth_error (cl_dbs C) i = Some y -> sits f (cl_kv C) T left x y.

Lemma sits_frame f s s' T T' left left' x y : sits f s T left x y -> same_own f s s' -> holds_series (TiKvStorage []) s' T' -> (forall i, increasing (T' i)) ->
  (left' <= left)%nat -> sits f s' T' left' x y.
Proof.
  intros [H1 H2 H3 H4] K A1 A2 L. assert (K': same_own (d_fs (snd y)) s s') by (unfold same_own in *; now rewrite H3).
  constructor; try assumption. destruct (se_db x) as [[cf d]|].
  - destruct H4 as (E & R & B). split; [exact E|]. split; [|lia]. rewrite <- (with_twice d T T'). eapply running_frame; eassumption.
  - destruct H4 as (E & D & M). split; [exact E|]. split; [|exact M]. eapply disk_frame; eassumption.
Qed.
(* an act on one directory is nothing to the others *)
Lemma others fs i j f g s s' : own_uuids fs -> Forall env_ok fs -> nth_error fs i = Some f -> nth_error fs j = Some g -> i <> j -> own_only f s s' -> same_own g s s'.
Proof.
  intros U He Ni Nj D O m r. rewrite Forall_forall in He.
  destruct (He f (nth_error_In _ _ Ni)) as (_ & Lf & _). destruct (He g (nth_error_In _ _ Nj)) as (_ & Lg & _).
  apply O; [rewrite app_length, Lg; lia|]. intros m' r' E. apply first_eq in E; [|now rewrite Lf, Lg].
  destruct (U j i g f m m' Nj Ni E). congruence.
Qed.
Lemma own_uuid f f' s s' : f_uuid f' = f_uuid f -> own_only f' s s' -> own_only f s s'.
Proof. intros E H k K1 K2. apply H; [exact K1|]. now rewrite E. Qed.

Lemma one_op cf t d start n o : running cf t d start n -> starts_ok cf start [o] -> Forall ireq_ok (written [o]) ->
  Z.of_nat (length (sh_sets d) + length (written [o])) < 2 ^ 64 - 1 ->
  exists t', trun (top_prog cf o) t = Some (snd (shelf_op cf d o), t') /\
    running cf t' (fst (shelf_op cf d o)) (match o with OpSwap st => st | _ => start end) (match o with OpSwap _ => S n | _ => n end) /\
    f_ticks (d_fs (t_db t')) = f_ticks (d_fs (t_db t)) /\ same_env (d_fs (t_db t)) (d_fs (t_db t')) /\
    own_only (d_fs (t_db t)) (t_kv t) (t_kv t').
Proof.
  intros R Hs Hw HL. destruct (t_ops cf [o] t d start n R Hs Hw HL) as (t' & E & R' & F1 & F2 & _ & OW).
  cbn [t_after_from shelf_ops] in E, R'. destruct (trun (top_prog cf o) t) as [[r t1]|]; [|discriminate].
  destruct (shelf_op cf d o) as [d1 r1]. cbn [fst snd] in *. exists t1. assert (r = r1 /\ t1 = t') as [-> ->] by (split; congruence).
  split; [reflexivity|]. split; [|auto]. destruct o; cbn [last_start swaps] in R'; rewrite ?Nat.add_0_r in R'; try exact R'. now rewrite Nat.add_1_r in R'.
Qed.
Lemma put_sets ch x ls p : (length (fst (fst (put ch x ls p))) <= S (length (fst x)))%nat.
Proof. destruct x as [ks T]. unfold put. destruct (in_windowb ch (tp_ts p)); [|cbn; lia]. destruct (place 1 ks ls); cbn [fst]; rewrite ?app_length; cbn; lia. Qed.
Lemma puts_sets ch ls pts : forall x, (length (fst (fst (puts ch x ls pts))) <= length (fst x) + length pts)%nat.
Proof.
  induction pts as [|p pts IH]; intros x; cbn [puts length]; [cbn; lia|]. pose proof (put_sets ch x ls p) as P. destruct (put ch x ls p) as [x' b].
  specialize (IH x'). destruct (puts ch x' ls pts) as [x'' b']. cbn [fst] in *. lia.
Qed.
Lemma op_sets cf d o : (length (sh_sets (fst (shelf_op cf d o))) <= length (sh_sets d) + length (written [o]))%nat.
Proof.
  destruct o as [ls p|ls pts|st]; cbn [shelf_op written].
  - pose proof (put_sets (sh_cur d) (sh_sets d, sh_tab d) ls p) as P. destruct (put _ _ ls p) as [[ks T] ok]. cbn [fst snd sh_sets length] in *. lia.
  - pose proof (puts_sets (sh_cur d) ls pts (sh_sets d, sh_tab d)) as P. destruct (puts _ _ ls pts) as [[ks T] ok]. cbn [fst snd sh_sets] in *. rewrite app_length, map_length. cbn [length]. lia.
  - cbn [fst sh_sets length]. lia.
Qed.

(* one act *)
Lemma act_sits f s T left x y a : sits f s T (left + match a with Run o => length (written [o]) | _ => 0 end) x y -> act_ok x a -> Z.of_nat left < 2 ^ 64 - 1 ->
  let '(x', T', r) := seat_act x T a in
  exists y' s', (match a with
                 | Start cf => match t_open cf (d_fs (snd y)) s with Some (r, t) => Some (r, (Some cf, t_db t), t_kv t) | None => None end
                 | Run o => match fst y with
                            | Some cf => match trun (top_prog cf o) (mkT (snd y) s) with Some (r, t) => Some (r, (Some cf, t_db t), t_kv t) | None => None end
                            | None => None
                            end
                 end) = Some (r, y', s') /\
    sits f s' T' left x' y' /\ own_only f s s' /\ holds_series (TiKvStorage []) s' T' /\ forall i, increasing (T' i).
Proof.
  intros [H1 H2 H3 H4] OK HL. destruct a as [cf|o]; cbn [seat_act act_ok] in *.
  - destruct OK as (K1 & K2 & K3 & K4 & K5 & K6 & K7).
    assert (D: disk (d_fs (snd y)) s (se_dirs x) (se_last x) T /\ (f_meta (d_fs (snd y)) = None \/ f_meta (d_fs (snd y)) = Some (Written (own_meta cf)))).
    { destruct (se_db x) as [[cf0 d]|].
      - destruct H4 as (_ & R & _). pose proof R as (h0 & dc & mc & re & O). destruct (or_types _ _ _ _ _ _ _ _ _ O) as [T1 T2].
        apply disk_running in R as [D M]. cbn [t_db t_kv with_table sh_tab] in *. split; [exact D|]. right. rewrite M. do 2 f_equal. now apply own_same.
      - destruct H4 as (_ & D & M). auto. }
    destruct D as [D M]. unfold next_start in *. rewrite <- H1, <- H2 in *.
    destruct (t_open_run cf _ s _ _ T D M K4 K3 K1 K2 K5 K6 K7) as (t & E & R & F1 & F2 & OW).
    destruct (running_table _ _ _ _ _ R) as [A1 A2]. cbn [open_shelf sh_tab] in A1, A2.
    rewrite E. do 2 eexists. split; [reflexivity|]. split; [|split; [now apply (own_uuid f) in OW|auto]].
    destruct F2 as (_ & F2 & F3 & _). constructor; cbn [se_clock se_tick se_dirs se_last se_db fst snd]; [congruence|congruence|congruence|].
    split; [reflexivity|]. assert (mkT (t_db t) (t_kv t) = t) as -> by now destruct t. split; [exact R|]. cbn [open_shelf sh_sets length]. lia.
  - destruct (se_db x) as [[cf d]|]; [|contradiction]. destruct OK as [K1 K2]. destruct H4 as (E & R & B). rewrite E.
    destruct (one_op cf _ _ _ _ o R K1 K2) as (t' & E' & R' & F1 & F2 & OW); [cbn [with_table sh_sets]; lia|].
    rewrite E'. pose proof (op_sets cf (with_table d T) o) as L. destruct (shelf_op cf (with_table d T) o) as [d' r]. cbn [fst snd t_db t_kv] in *.
    destruct (running_table _ _ _ _ _ R') as [A1 A2]. do 2 eexists. split; [reflexivity|]. split; [|split; [now apply (own_uuid f) in OW|auto]].
    destruct F2 as (_ & F2 & F3 & _). constructor; cbn [se_clock se_tick se_dirs se_last se_db fst snd]; [congruence|congruence|congruence|].
    split; [reflexivity|]. assert (mkT (t_db t') (t_kv t') = t') as -> by now destruct t'. rewrite with_same. split; [exact R'|].
    cbn [with_table sh_sets] in L. lia.
Qed.

Lemma cl_steps fs l : Forall env_ok fs -> own_uuids fs -> forall C X T, all_sit fs C X T (length (asked_of l)) -> acts_ok X T l -> Z.of_nat (length (asked_of l)) < 2 ^ 64 - 1 ->
  let '(X', T', rs) := seats_run X T l in
  exists C', cl_run l C = Some (rs, C') /\ all_sit fs C' X' T' 0.
Proof.
  intros He Hu. induction l as [|[i a] l IH]; intros C X T A OK HL; cbn [seats_run cl_run acts_ok] in *.
  - exists C. split; [reflexivity|exact A].
  - destruct A as (A1 & A2 & A3). destruct (nth_error X i) as [x|] eqn:Nx; [|contradiction]. destruct OK as [OK1 OK2].
    assert (Li: (i < length X)%nat) by (apply nth_error_Some; congruence).
    destruct (nth_error fs i) as [f|] eqn:Nf; [|apply nth_error_None in Nf; lia].
    destruct (nth_error (cl_dbs C) i) as [y|] eqn:Ny; [|apply nth_error_None in Ny; lia].
    assert (LL: length (asked_of ((i, a) :: l)) = (length (asked_of l) + match a with Run o => length (written [o]) | _ => 0 end)%nat).
    { destruct a; cbn [asked_of]; [lia|]. rewrite app_length, map_length. lia. }
    rewrite LL in HL, A3. pose proof (act_sits f _ T (length (asked_of l)) x y a (A3 i f x y Nf Nx Ny) OK1 ltac:(lia)) as ST.
    destruct (seat_act x T a) as [[x' T'] r]. destruct ST as (y' & s' & E & S' & OW & B1 & B2).
    assert (ED: cl_do i a C = Some (r, mkCl (upd (cl_dbs C) i y') s')).
    { unfold cl_do. rewrite Ny. destruct y as [o db]. cbn [fst snd] in E. destruct a as [cf|op].
      - destruct (t_open cf (d_fs db) (cl_kv C)) as [[r0 t]|]; [|discriminate].
        assert (r0 = r) as -> by congruence. assert (y' = (Some cf, t_db t)) as -> by congruence. assert (s' = t_kv t) as -> by congruence. destruct o; reflexivity.
      - destruct o as [cf|]; [|discriminate]. rewrite (run_dir _ _ _ _ _ Ny). unfold trun in E.
        destruct (run thandler (top_prog cf op) (mkT db (cl_kv C))) as [[r0 t]|]; [|discriminate].
        assert (r0 = r) as -> by congruence. assert (y' = (Some cf, t_db t)) as -> by congruence. assert (s' = t_kv t) as -> by congruence. reflexivity. }
    rewrite ED. specialize (IH (mkCl (upd (cl_dbs C) i y') s') (upd X i x') T').
    destruct (seats_run (upd X i x') T' l) as [[X' T''] rs].
    destruct IH as (C' & EC & AC); [|exact OK2|lia|rewrite EC; eauto].
    assert (Ly: (i < length (cl_dbs C))%nat) by lia. split; [cbn [cl_dbs]; now rewrite upd_length|]. split; [now rewrite upd_length|].
    intros j g z w Ng Nz Nw. cbn [cl_dbs cl_kv] in *. rewrite nth_upd in Nz by assumption. rewrite nth_upd in Nw by assumption. destruct (Nat.eqb_spec j i) as [->|D].
    + assert (g = f /\ z = x' /\ w = y') as (-> & -> & ->) by (repeat split; congruence). exact S'.
    + eapply sits_frame; [exact (A3 j g z w Ng Nz Nw)|eapply others; [exact Hu|exact He|exact Nf|exact Ng|congruence|exact OW]|exact B1|exact B2|lia].
Qed.
Lemma nth_map {A B} (g : A -> B) l i : nth_error (map g l) i = option_map g (nth_error l i).
Proof. revert i. induction l as [|a l IH]; intros [|i]; try reflexivity. apply IH. Qed.
Lemma sit_down fs s n : Forall env_ok fs -> Forall empty_dir fs -> own_uuids fs -> unknown fs s -> no_points s ->
  all_sit fs (nobody fs s) (map seat_of fs) no_table n.
Proof.
  intros He Hd Hu Hn Hp. unfold nobody. split; [cbn [cl_dbs]; now rewrite map_length|]. split; [now rewrite map_length|].
  cbn [cl_dbs cl_kv]. intros i f x y Nf Nx Ny. rewrite nth_map, Nf in Nx. rewrite nth_map, Nf in Ny. cbn [option_map] in *. injection Nx as <-. injection Ny as <-.
  pose proof (nth_error_In _ _ Nf) as If. rewrite Forall_forall in He, Hd.
  constructor; cbn [seat_of se_clock se_tick se_dirs se_last se_db fst snd closed_db d_fs]; try reflexivity.
  split; [reflexivity|]. split; [|apply (Hd f If)]. apply first_disk; [now apply He|now apply Hd| |now apply no_points_series|intros; constructor].
  split; [|intros m r; now apply Hn]. intros a b E. now destruct (Hu i i f f a b Nf Nf E).
Qed.
Theorem cluster_runs fs s l : Forall env_ok fs -> Forall empty_dir fs -> own_uuids fs -> unknown fs s -> no_points s ->
  acts_ok (map seat_of fs) no_table l -> Z.of_nat (length (asked_of l)) < 2 ^ 64 - 1 ->
  let '(X, T, rs) := seats_run (map seat_of fs) no_table l in
  exists C, cl_run l (nobody fs s) = Some (rs, C) /\
    forall i x cf d, nth_error X i = Some x -> se_db x = Some (cf, d) ->
    forall hs bs o q a b, hasher_ok hs -> bs_contract bs -> Forall lab_ok q -> unmixed hs (shelf_parts (with_table d T)) q a b ->
      exists r, run clhandler (at_dir i (t_query hs bs o q a b)) C = Some (r, C) /\ comes_to (shelf_parts (with_table d T)) q a b r.
Proof.
  intros He Hd Hu Hn Hp OK HL. pose proof (cl_steps fs l He Hu _ _ _ (sit_down fs s (length (asked_of l)) He Hd Hu Hn Hp) OK HL) as K.
  destruct (seats_run (map seat_of fs) no_table l) as [[X T] rs]. destruct K as (C & E & A1 & A2 & A3). exists C. split; [exact E|].
  intros i x cf d Nx Ed hs bs o q a b Hh Hb Hq Hm.
  assert (Li: (i < length X)%nat) by (apply nth_error_Some; congruence).
  destruct (nth_error fs i) as [f|] eqn:Nf; [|apply nth_error_None in Nf; lia].
  destruct (nth_error (cl_dbs C) i) as [[oc db]|] eqn:Ny; [|apply nth_error_None in Ny; lia].
  destruct (A3 i f x _ Nf Nx Ny) as [_ _ _ S4]. rewrite Ed in S4. destruct S4 as (_ & R & B). cbn [fst snd] in *.
  destruct (t_answer cf _ _ _ _ hs bs o q a b R ltac:(cbn [with_table sh_sets]; lia) Hh Hb Hq Hm) as (r & E1 & W).
  exists r. split; [|exact W]. rewrite (run_dir _ _ _ _ _ Ny). unfold trun in E1. rewrite E1. cbn [t_db t_kv]. rewrite upd_self' by assumption. now destruct C.
Qed.
