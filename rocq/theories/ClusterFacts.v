(* Proofs: what the answers of several processes over one TiKV consist of. *)
From Coq Require Import ZifyBool ZifyNat Permutation.
From Verif Require Import Rust StringProofs BitsProofs Prog Gorilla GorillaSpec Storage StorageSpec StorageProofs Labels IndexSpec Indexer
  LabelProofs IndexProofs Chunk ChunkSpec ChunkProofs ChunkFacts Conc Utils DirSpec DirProofs TiKvInit TiKvShared TiKvSpec TiKvProofs
  Db DbSpec MapProofs DbProofs DbHist DbFacts SwapProofs ReopenSpec ReopenProofs RangeSpec RangeProofs TiKvDb TiKvDbSpec TiKvDbRun TiKvDbChunk TiKvDbProofs TiKvDbMain
  Cluster ClusterSpec ClusterProofs.

Definition full (ks : list (list label)) (T : table) : Prop := forall n, 1 <= n <= Z.of_nat (length ks) -> T n <> [].
Definition kept_in (T T' : table) : Prop := forall n x, In x (T n) -> In x (T' n).
Definition from (T T' : table) (pts : list tp) : Prop := forall n x, In x (T' n) -> In x (T n) \/ In x pts.

Lemma append_kept T n p : kept_in T (append T n p).
Proof. intros m x H. unfold append. destruct (Z.eqb_spec m n) as [->|]; [|exact H]. destruct (later (T n) p); [apply in_or_app; now left|exact H]. Qed.
Lemma append_from T n p : from T (append T n p) [p].
Proof. intros m x. unfold append. destruct (Z.eqb_spec m n) as [->|]; [|now left]. destruct (later (T n) p); [|now left]. intros H. now apply in_app_or in H. Qed.
Lemma append_full T n p : append T n p n <> [].
Proof.
  unfold append. rewrite Z.eqb_refl. destruct (later (T n) p) eqn:E; [intros H; now apply app_eq_nil in H|]. intros H. rewrite H in E. discriminate.
Qed.
Lemma kept_full T T' n : kept_in T T' -> T n <> [] -> T' n <> [].
Proof. intros K H E. destruct (T n) as [|x r] eqn:X; [congruence|]. pose proof (K n x) as N. rewrite X, E in N. destruct (N (or_introl eq_refl)). Qed.
Lemma place_app ks more ls : forall n m, place n ks ls = Some m -> place n (ks ++ more) ls = Some m.
Proof. induction ks as [|k ks IH]; intros n m; cbn [place app]; [discriminate|]. destruct (same_setb k ls); [auto|apply IH]. Qed.
Lemma place_snoc ks ls : set_ok ls -> forall n, place n ks ls = None -> place n (ks ++ [ls]) ls = Some (n + Z.of_nat (length ks)).
Proof.
  intros S. induction ks as [|k ks IH]; intros n; cbn [place app length].
  - intros _. rewrite same_setb_refl by assumption. f_equal. lia.
  - destruct (same_setb k ls); [discriminate|]. intros H. rewrite IH by assumption. f_equal. lia.
Qed.
Lemma place_nth ks ls : forall n m, place n ks ls = Some m -> exists i k, m = n + Z.of_nat i /\ nth_error ks i = Some k /\ same_setb k ls = true.
Proof.
  induction ks as [|k ks IH]; intros n m; cbn [place]; [discriminate|]. destruct (same_setb k ls) eqn:E.
  - intros H. exists 0%nat, k. split; [assert (n = m) by congruence; lia|auto].
  - intros H. destruct (IH _ _ H) as (i & k' & E1 & E2 & E3). exists (S i), k'. split; [lia|auto].
Qed.

(** ** one write *)
Record wrote (pts : list tp) (ls : list label) (x x' : list (list label) * table) : Prop := mkWrote {
  wr_more : exists more, fst x' = fst x ++ more /\ forall l, In l more -> l = ls /\ pts <> [];
  wr_kept : kept_in (snd x) (snd x');
  wr_from : from (snd x) (snd x') pts;
  wr_full : full (fst x) (snd x) -> full (fst x') (snd x');
  wr_dist : set_ok ls -> distinct (fst x) -> distinct (fst x') }.
Lemma put_wrote ch x ls p : wrote [p] ls x (fst (put ch x ls p)).
Proof.
  destruct x as [ks T]. unfold put. destruct (in_windowb ch (tp_ts p)).
  - destruct (place 1 ks ls) as [n|] eqn:P; cbn [fst].
    + constructor; cbn [fst snd]; auto using append_kept, append_from.
      * exists []. rewrite app_nil_r. split; [reflexivity|intros l []].
      * intros F m Hm. eapply kept_full; [apply append_kept|]. now apply F.
    + constructor; cbn [fst snd]; auto using append_kept, append_from.
      * exists [ls]. split; [reflexivity|]. intros l [<-|[]]. split; [reflexivity|discriminate].
      * intros F m Hm. rewrite app_length in Hm. cbn [length] in Hm. destruct (Z.eq_dec m (Z.of_nat (length ks) + 1)) as [->|D]; [apply append_full|].
        eapply kept_full; [apply append_kept|]. apply F. lia.
      * intros S D. now apply distinct_snoc.
  - constructor; cbn [fst snd]; auto.
    + exists []. rewrite app_nil_r. split; [reflexivity|intros l []].
    + intros n y H. exact H.
    + intros n y H. now left.
Qed.
Lemma wrote_refl ls x : wrote [] ls x x.
Proof.
  constructor; auto.
  - exists []. rewrite app_nil_r. split; [reflexivity|intros l []].
  - intros n y H. exact H.
  - intros n y H. now left.
Qed.
Lemma wrote_trans a b ls x y z : wrote a ls x y -> wrote b ls y z -> wrote (a ++ b) ls x z.
Proof.
  intros [(m1 & A1 & A1') A2 A3 A4 A5] [(m2 & B1 & B1') B2 B3 B4 B5]. constructor; auto.
  - exists (m1 ++ m2). rewrite B1, A1, app_assoc. split; [reflexivity|]. intros l Hl. apply in_app_or in Hl as [Hl|Hl].
    + destruct (A1' l Hl) as [-> N]. split; [reflexivity|]. intros E. now apply app_eq_nil in E.
    + destruct (B1' l Hl) as [-> N]. split; [reflexivity|]. intros E. now apply app_eq_nil in E.
  - intros n w H. apply B2, A2, H.
  - intros n w H. destruct (B3 n w H) as [H'|H']; [destruct (A3 n w H') as [H''|H'']|]; [now left|right; apply in_or_app; now left|right; apply in_or_app; now right].
Qed.
Lemma puts_wrote ch ls pts : forall x, wrote pts ls x (fst (puts ch x ls pts)).
Proof.
  induction pts as [|p pts IH]; intros x; cbn [puts]; [apply wrote_refl|]. pose proof (put_wrote ch x ls p) as P. destruct (put ch x ls p) as [x' b]. cbn [fst] in P.
  specialize (IH x'). destruct (puts ch x' ls pts) as [x'' b']. cbn [fst] in *. apply (wrote_trans [p] pts ls x x' x''); assumption.
Qed.

(** ** one operation *)
Definition windows (d : shelf) : list (chunk * list (list label)) := sh_old d ++ [(sh_cur d, sh_sets d)].
Record moved (o : dop) (d d' : shelf) : Prop := mkMoved {
  mv_win : forall c, In c (windows d) -> exists more, In (fst c, snd c ++ more) (windows d');
  mv_lab : forall c l, In c (windows d') -> In l (snd c) -> (exists c', In c' (windows d) /\ In l (snd c')) \/ exists p, In (l, p) (written [o]);
  mv_kept : kept_in (sh_tab d) (sh_tab d');
  mv_from : from (sh_tab d) (sh_tab d') (map snd (written [o]));
  mv_full : (forall c, In c (windows d) -> full (snd c) (sh_tab d)) -> forall c, In c (windows d') -> full (snd c) (sh_tab d');
  mv_dist : Forall ireq_ok (written [o]) -> (forall c, In c (windows d) -> distinct (snd c)) -> forall c, In c (windows d') -> distinct (snd c) }.
Lemma wrote_moved o pts ls d ks T : wrote pts ls (sh_sets d, sh_tab d) (ks, T) -> written [o] = map (pair ls) pts ->
  moved o d (mkShelf (sh_old d) (sh_cur d) ks T).
Proof.
  intros [(more & A1 & A1') A2 A3 A4 A5] E. cbn [fst snd] in *.
  assert (EP: map snd (written [o]) = pts) by (rewrite E, map_map; apply map_id).
  constructor; cbn [sh_old sh_cur sh_sets sh_tab windows]; unfold windows; cbn [sh_old sh_cur sh_sets].
  - intros c Hc. apply in_app_or in Hc as [Hc|[<-|[]]].
    + exists []. rewrite app_nil_r. apply in_or_app. left. now destruct c.
    + exists more. cbn [fst snd]. rewrite <- A1. apply in_or_app. right. now left.
  - intros c l Hc Hl. apply in_app_or in Hc as [Hc|[<-|[]]].
    + left. exists c. split; [apply in_or_app; now left|exact Hl].
    + cbn [snd] in Hl. rewrite A1 in Hl. apply in_app_or in Hl as [Hl|Hl].
      * left. exists (sh_cur d, sh_sets d). split; [apply in_or_app; right; now left|exact Hl].
      * right. destruct (A1' l Hl) as [-> N]. destruct pts as [|p pts']; [congruence|]. exists p. rewrite E. now left.
  - exact A2.
  - rewrite EP. exact A3.
  - intros H c Hc. apply in_app_or in Hc as [Hc|[<-|[]]].
    + intros n Hn. eapply kept_full; [exact A2|]. apply (H c); [apply in_or_app; now left|exact Hn].
    + cbn [snd]. apply A4. apply (H (sh_cur d, sh_sets d)). apply in_or_app. right. now left.
  - intros W H c Hc. apply in_app_or in Hc as [Hc|[<-|[]]]; [apply H; apply in_or_app; now left|]. cbn [snd].
    assert (D: distinct (sh_sets d)) by (apply (H (sh_cur d, sh_sets d)); apply in_or_app; right; now left).
    destruct pts as [|p pts']; [|apply A5; [|exact D]; rewrite E in W; now inversion W as [|? ? [W1 _] _]].
    assert (more = []) as -> by (destruct more as [|l more]; [reflexivity|]; destruct (A1' l) as [_ N]; [now left|congruence]). rewrite A1, app_nil_r. exact D.
Qed.
Lemma op_moved cf d o : moved o d (fst (shelf_op cf d o)).
Proof.
  destruct o as [ls p|ls pts|start]; cbn [shelf_op].
  - pose proof (put_wrote (sh_cur d) (sh_sets d, sh_tab d) ls p) as P. destruct (put _ _ ls p) as [[ks T] ok]. cbn [fst] in *.
    eapply wrote_moved; [exact P|reflexivity].
  - pose proof (puts_wrote (sh_cur d) ls pts (sh_sets d, sh_tab d)) as P. destruct (puts _ _ ls pts) as [[ks T] ok]. cbn [fst] in *.
    eapply wrote_moved; [exact P|]. cbn [written]. apply app_nil_r.
  - cbn [fst]. constructor; cbn [written sh_tab map]; unfold windows; cbn [sh_old sh_cur sh_sets].
    + intros c Hc. exists []. rewrite app_nil_r. apply in_or_app. left. now destruct c.
    + intros c l Hc Hl. left. apply in_app_or in Hc as [Hc|[<-|[]]]; [eauto|destruct Hl].
    + intros n x H. exact H.
    + intros n x H. now left.
    + intros H c Hc. apply in_app_or in Hc as [Hc|[<-|[]]]; [now apply H|]. intros n Hn. cbn [snd length] in Hn. lia.
    + intros _ H c Hc. apply in_app_or in Hc as [Hc|[<-|[]]]; [now apply H|apply distinct_nil].
Qed.

(** ** any number of acts *)
Record known (W : list (nat * ireq)) (S : nat -> list ireq) (X : list seat) (T : table) : Prop := mkKnown {
  kn_pts : forall n p, In p (T n) -> exists j ls, In (j, (ls, p)) W;
  kn_lab : forall i x cf d, nth_error X i = Some x -> se_db x = Some (cf, d) -> forall c ls, In c (windows d) -> In ls (snd c) -> exists p, In (ls, p) (S i);
  kn_full : forall i x cf d, nth_error X i = Some x -> se_db x = Some (cf, d) -> forall c, In c (windows d) -> full (snd c) T;
  kn_dist : forall i x cf d, nth_error X i = Some x -> se_db x = Some (cf, d) -> forall c, In c (windows d) -> distinct (snd c) }.
Definition asked_next (W : list (nat * ireq)) (i : nat) (a : act) : list (nat * ireq) := match a with Start _ => W | Run o => W ++ map (pair i) (written [o]) end.
Definition since_next (S : nat -> list ireq) (i : nat) (a : act) : nat -> list ireq :=
  fun j => if (i =? j)%nat then match a with Start _ => [] | Run o => S j ++ written [o] end else S j.
Lemma act_kept x T a : kept_in T (snd (fst (seat_act x T a))).
Proof.
  destruct a as [cf|o]; cbn [seat_act fst snd]; [intros n y H; exact H|]. destruct (se_db x) as [[cf d]|]; [|intros n y H; exact H].
  pose proof (mv_kept _ _ _ (op_moved cf (with_table d T) o)) as K. destruct (shelf_op cf (with_table d T) o) as [d' r]. exact K.
Qed.
Lemma known_act W S X T i x a : known W S X T -> nth_error X i = Some x -> act_ok x a ->
  known (asked_next W i a) (since_next S i a) (upd X i (fst (fst (seat_act x T a)))) (snd (fst (seat_act x T a))).
Proof.
  intros [K1 K2 K3 K4] N OK. assert (L: (i < length X)%nat) by (apply nth_error_Some; congruence). pose proof (act_kept x T a) as GR.
  destruct a as [cf|o]; cbn [seat_act asked_next act_ok] in *.
  - cbn [fst snd] in *. constructor; [exact K1| | |]; intros j y cf' d' Nj E; rewrite nth_upd in Nj by assumption; unfold since_next; try rewrite (Nat.eqb_sym i j); destruct (Nat.eqb_spec j i) as [->|D].
    2,4,6: eauto.
    all: injection Nj as <-; cbn [se_db] in E; injection E as <- <-; unfold windows, open_shelf; cbn [sh_old sh_cur sh_sets app].
    + intros c ls [<-|[]] [].
    + intros c [<-|[]] n Hn. cbn [snd length] in Hn. lia.
    + intros c [<-|[]]. apply distinct_nil.
  - destruct (se_db x) as [[cf d]|] eqn:Ed; [|contradiction]. destruct OK as [_ OK].
    destruct (op_moved cf (with_table d T) o) as [M1 M2 M3 M4 M5 M6]. destruct (shelf_op cf (with_table d T) o) as [d1 r]. cbn [fst snd with_table sh_tab] in *.
    assert (WN: windows (with_table d T) = windows d) by reflexivity. rewrite WN in *.
    constructor.
    + intros n p H. destruct (M4 n p H) as [H'|H'].
      * destruct (K1 n p H') as (j & ls & Hj). exists j, ls. apply in_or_app. now left.
      * apply in_map_iff in H' as ([ls p'] & E & Hw). cbn [snd] in E. subst p'. exists i, ls. apply in_or_app. right. now apply in_map.
    + intros j y cf' d' Nj E. rewrite nth_upd in Nj by assumption. unfold since_next. rewrite (Nat.eqb_sym i j). destruct (Nat.eqb_spec j i) as [->|D]; [|eauto].
      injection Nj as <-. cbn [se_db] in E. injection E as <- <-. intros c ls Hc Hl. destruct (M2 c ls Hc Hl) as [(c' & Hc' & Hl')|(p & Hp)].
      * destruct (K2 i x cf d N Ed c' ls Hc' Hl') as [p Hp]. exists p. apply in_or_app. now left.
      * exists p. apply in_or_app. now right.
    + intros j y cf' d' Nj E. rewrite nth_upd in Nj by assumption. destruct (Nat.eqb_spec j i) as [->|D].
      * injection Nj as <-. cbn [se_db] in E. injection E as <- <-. apply M5. intros c Hc. now apply (K3 i x cf d).
      * intros c Hc n Hn. eapply kept_full; [exact GR|]. now apply (K3 j y cf' d' Nj E c Hc n).
    + intros j y cf' d' Nj E. rewrite nth_upd in Nj by assumption. destruct (Nat.eqb_spec j i) as [->|D]; [|eauto].
      injection Nj as <-. cbn [se_db] in E. injection E as <- <-. apply M6; [exact OK|]. intros c Hc. now apply (K4 i x cf d).
Qed.
Lemma seats_known l : forall W S X T, known W S X T -> acts_ok X T l ->
  let '(X', T', _) := seats_run X T l in known (W ++ asked_of l) (fun i => since i l (S i)) X' T' /\ kept_in T T'.
Proof.
  induction l as [|[i a] l IH]; intros W S X T K OK; cbn [seats_run acts_ok asked_of since] in *.
  - rewrite app_nil_r. split; [exact K|intros n x H; exact H].
  - destruct (nth_error X i) as [x|] eqn:N; [|contradiction]. destruct OK as [O1 O2].
    pose proof (known_act W S X T i x a K N O1) as K'. pose proof (act_kept x T a) as GR. destruct (seat_act x T a) as [[x' T'] r]. cbn [fst snd] in *.
    specialize (IH _ _ _ _ K' O2). destruct (seats_run (upd X i x') T' l) as [[X' T''] rs]. destruct IH as [IH IG].
    split; [|intros n y H; apply IG, GR, H].
    assert (EW: asked_next W i a ++ asked_of l = W ++ match a with Start _ => asked_of l | Run o => map (pair i) (written [o]) ++ asked_of l end).
    { destruct a; cbn [asked_next]; [reflexivity|]. now rewrite app_assoc. }
    rewrite EW in IH. destruct IH as [J1 J2 J3 J4]. constructor; [|exact J2|exact J3|exact J4].
    intros n p H. destruct a; exact (J1 n p H).
Qed.
Lemma known_first fs : known [] (fun _ => []) (map seat_of fs) no_table.
Proof.
  constructor; [intros n p []| | |]; intros i x cf d N E; rewrite nth_map in N; destruct (nth_error fs i); try discriminate; injection N as <-; discriminate.
Qed.

(** ** what is answered was written *)
Theorem cluster_sound fs l X T rs i x cf d q a b r m pts p : acts_ok (map seat_of fs) no_table l -> seats_run (map seat_of fs) no_table l = (X, T, rs) ->
  nth_error X i = Some x -> se_db x = Some (cf, d) -> comes_to (shelf_parts (with_table d T)) q a b (Ok r) -> In (m, pts) r -> In p pts ->
  a <= tp_ts p <= b /\ (exists j ls, In (j, (ls, p)) (asked_of l)) /\ (exists ls p', In (ls, p') (since i l []) /\ sort_labels ls = m).
Proof.
  intros OK E N Ed C Hm Hp. pose proof (seats_known l _ _ _ _ (known_first fs) OK) as K. rewrite E in K. destruct K as [[K1 K2 _ _] _].
  destruct C as [[_ C]|(_ & r' & C & [_ A])]; [discriminate|]. injection C as <-. apply A in Hm as [_ ->]. apply in_concat in Hp as (pl & Hpl & Hp).
  apply in_map_iff in Hpl as (c & <- & Hc). apply piece_in in Hp as (ls & ps & Hs & Es & _ & Hp & Ht & _). split; [exact Ht|].
  unfold shelf_parts in Hc. apply in_map_iff in Hc as (w & <- & Hw). cbn [snd fst with_table sh_tab sh_old sh_cur sh_sets] in *. change (In w (windows d)) in Hw.
  apply In_nth_error in Hs as (k & Hk). rewrite seen_nth in Hk. destruct (nth_error (snd w) k) as [ls'|] eqn:Nk; [|discriminate]. injection Hk as -> <-.
  split; [now apply (K1 (1 + Z.of_nat k))|]. destruct (K2 i x cf d N Ed w ls Hw) as [p' Hp']; [eapply nth_error_In; exact Nk|]. exists ls, p'. auto.
Qed.

(** ** the newest point is answered *)
Definition shows (X : list seat) (T : table) (i : nat) (ls : list label) (p : tp) : Prop :=
  exists x cf d, nth_error X i = Some x /\ se_db x = Some (cf, d) /\
    exists c n, In c (windows d) /\ place 1 (snd c) ls = Some n /\ in_windowb (fst c) (tp_ts p) = true /\ In p (T n).
Lemma seats_show l i ls p : (forall cf, ~ In (i, Start cf) l) -> forall X T, shows X T i ls p -> acts_ok X T l ->
  let '(X', T', _) := seats_run X T l in shows X' T' i ls p.
Proof.
  induction l as [|[j a] l IH]; intros NS X T H OK; cbn [seats_run acts_ok] in *; [exact H|].
  destruct (nth_error X j) as [y|] eqn:N; [|contradiction]. destruct OK as [O1 O2]. pose proof (act_kept y T a) as GR.
  assert (L: (j < length X)%nat) by (apply nth_error_Some; congruence).
  assert (H': shows (upd X j (fst (fst (seat_act y T a)))) (snd (fst (seat_act y T a))) i ls p).
  { destruct H as (x & cf & d & Nx & Ed & c & n & Hc & Hn & Hw & Hp). unfold shows. rewrite nth_upd by assumption. destruct (Nat.eqb_spec i j) as [->|D].
    - assert (y = x) as -> by congruence. destruct a as [cf0|o]; [exfalso; apply (NS cf0); now left|]. cbn [seat_act] in *. rewrite Ed in *.
      destruct (op_moved cf (with_table d T) o) as [M1 _ _ _ _ _]. destruct (shelf_op cf (with_table d T) o) as [d1 r]. cbn [fst snd] in *.
      destruct (M1 c Hc) as [more Hm]. do 3 eexists. split; [reflexivity|]. cbn [se_db]. split; [reflexivity|]. exists (fst c, snd c ++ more), n.
      split; [exact Hm|]. cbn [fst snd]. split; [now apply place_app|]. split; [exact Hw|]. now apply GR.
    - exists x, cf, d. split; [exact Nx|]. split; [exact Ed|]. exists c, n. split; [exact Hc|]. split; [exact Hn|]. split; [exact Hw|]. now apply GR. }
  destruct (seat_act y T a) as [[y' T'] r]. cbn [fst snd] in H'. specialize (IH ltac:(intros cf Hin; apply (NS cf); now right) _ _ H' O2).
  destruct (seats_run (upd X j y') T' l) as [[X' T''] rs]. exact IH.
Qed.
Lemma act_shows X T i x ls p : nth_error X i = Some x -> act_ok x (Run (OpPoint ls p)) -> (forall n y, In y (T n) -> tp_ts y < tp_ts p) ->
  snd (seat_act x T (Run (OpPoint ls p))) = Ok tt ->
  shows (upd X i (fst (fst (seat_act x T (Run (OpPoint ls p)))))) (snd (fst (seat_act x T (Run (OpPoint ls p))))) i ls p.
Proof.
  intros N OK LT. assert (L: (i < length X)%nat) by (apply nth_error_Some; congruence). cbn [seat_act act_ok] in *.
  destruct (se_db x) as [[cf d]|] eqn:Ed; [|contradiction]. destruct OK as [_ OK]. cbn [written] in OK. inversion OK as [|? ? [S _] _]; subst. cbn [fst] in S.
  cbn [shelf_op with_table sh_cur sh_sets sh_tab sh_old]. unfold put. destruct (in_windowb (sh_cur d) (tp_ts p)) eqn:W; [|cbn [snd]; discriminate].
  assert (LA: forall n, later (T n) p = true) by (intros n; apply forallb_forall; intros y Hy; specialize (LT n y Hy); lia).
  assert (IN: forall n, In p (append T n p n)) by (intros n; unfold append; rewrite Z.eqb_refl, LA; apply in_or_app; right; now left).
  destruct (place 1 (sh_sets d) ls) as [n|] eqn:P; cbn [fst snd sh_tab]; intros _; unfold shows; rewrite nth_upd by assumption; rewrite Nat.eqb_refl.
  - do 3 eexists. split; [reflexivity|]. cbn [se_db]. split; [reflexivity|]. exists (sh_cur d, sh_sets d), n. unfold windows. cbn [sh_old sh_cur sh_sets fst snd].
    split; [apply in_or_app; right; now left|]. auto.
  - do 3 eexists. split; [reflexivity|]. cbn [se_db]. split; [reflexivity|]. exists (sh_cur d, sh_sets d ++ [ls]), (Z.of_nat (length (sh_sets d)) + 1).
    unfold windows. cbn [sh_old sh_cur sh_sets fst snd]. split; [apply in_or_app; right; now left|].
    split; [rewrite place_snoc by assumption; f_equal; lia|]. auto.
Qed.
Lemma seats_app l1 l2 : forall X T, acts_ok X T l1 -> seats_run X T (l1 ++ l2) =
  let '(X1, T1, r1) := seats_run X T l1 in let '(X2, T2, r2) := seats_run X1 T1 l2 in (X2, T2, r1 ++ r2).
Proof.
  induction l1 as [|[i a] l1 IH]; intros X T OK; cbn [seats_run acts_ok app] in *.
  - destruct (seats_run X T l2) as [[X2 T2] r2]. reflexivity.
  - destruct (nth_error X i) as [x|]; [|contradiction]. destruct OK as [_ OK]. destruct (seat_act x T a) as [[x' T'] r]. rewrite (IH _ _ OK).
    destruct (seats_run (upd X i x') T' l1) as [[X1 T1] r1]. destruct (seats_run X1 T1 l2) as [[X2 T2] r2]. reflexivity.
Qed.
Lemma acts_app l1 l2 : forall X T, acts_ok X T (l1 ++ l2) -> acts_ok X T l1 /\ let '(X1, T1, _) := seats_run X T l1 in acts_ok X1 T1 l2.
Proof.
  induction l1 as [|[i a] l1 IH]; intros X T OK; cbn [seats_run acts_ok app] in *; [auto|].
  destruct (nth_error X i) as [x|]; [|contradiction]. destruct OK as [O1 OK]. destruct (seat_act x T a) as [[x' T'] r]. specialize (IH _ _ OK).
  destruct (seats_run (upd X i x') T' l1) as [[X1 T1] r1]. tauto.
Qed.
Lemma results_length l : forall X T, acts_ok X T l -> length (snd (seats_run X T l)) = length l.
Proof.
  induction l as [|[i a] l IH]; intros X T OK; cbn [seats_run acts_ok] in *; [reflexivity|].
  destruct (nth_error X i) as [x|]; [|contradiction]. destruct OK as [_ OK]. destruct (seat_act x T a) as [[x' T'] r]. specialize (IH _ _ OK).
  destruct (seats_run (upd X i x') T' l) as [[X1 T1] r1]. cbn [snd length] in *. now rewrite IH.
Qed.
Lemma asked_app l1 l2 : asked_of (l1 ++ l2) = asked_of l1 ++ asked_of l2.
Proof. induction l1 as [|[i [cf|o]] l1 IH]; cbn [app asked_of]; [reflexivity|exact IH|]. now rewrite IH, app_assoc. Qed.
Lemma asked_ok l : forall X T, acts_ok X T l -> Forall (fun x => ireq_ok (snd x)) (asked_of l).
Proof.
  induction l as [|[i a] l IH]; intros X T OK; cbn [asked_of acts_ok] in *; [constructor|].
  destruct (nth_error X i) as [x|]; [|contradiction]. destruct OK as [O1 OK]. destruct (seat_act x T a) as [[x' T'] r]. specialize (IH _ _ OK).
  destruct a as [cf|o]; [exact IH|]. apply Forall_app. split; [|exact IH]. cbn [act_ok] in O1. destruct (se_db x) as [[cf d]|]; [|contradiction].
  destruct O1 as [_ O1]. rewrite Forall_forall in *. intros y Hy. apply in_map_iff in Hy as (z & <- & Hz). now apply O1.
Qed.

Theorem cluster_newest fs l1 i ls p l2 X T rs x cf d q a b r : let l := l1 ++ (i, Run (OpPoint ls p)) :: l2 in
  acts_ok (map seat_of fs) no_table l -> seats_run (map seat_of fs) no_table l = (X, T, rs) ->
  nth_error rs (length l1) = Some (Ok tt) -> (forall cf', ~ In (i, Start cf') l2) -> (forall j y, In (j, y) (asked_of l1) -> tp_ts (snd y) < tp_ts p) ->
  nth_error X i = Some x -> se_db x = Some (cf, d) ->
  q <> [] -> (forall k, In k q -> In k ls) -> (forall j y, In (j, y) (asked_of l) -> a <= tp_ts (snd y) <= b) ->
  comes_to (shelf_parts (with_table d T)) q a b (Ok r) -> exists pts, In (sort_labels ls, pts) r /\ In p pts.
Proof.
  cbv zeta. intros OK E Hr NS LT Nx Ed Nq Hq Hab C.
  pose proof (seats_known _ _ _ _ _ (known_first fs) OK) as K. rewrite E in K. destruct K as [[K1 _ K3 K4] _]. cbn [app] in K1.
  pose proof (asked_ok _ _ _ OK) as AO.
  assert (SP: set_ok ls /\ a <= tp_ts p <= b).
  { assert (IN: In (i, (ls, p)) (asked_of (l1 ++ (i, Run (OpPoint ls p)) :: l2))) by (rewrite asked_app; apply in_or_app; right; cbn [asked_of written map app]; now left).
    split; [|exact (Hab _ _ IN)]. rewrite Forall_forall in AO. apply (AO _ IN). }
  destruct SP as [SL Hp].
  destruct (acts_app l1 _ _ _ OK) as [O1 O2]. rewrite seats_app in E by assumption. pose proof (results_length l1 _ _ O1) as RL.
  pose proof (seats_known l1 _ _ _ _ (known_first fs) O1) as KN. destruct (seats_run (map seat_of fs) no_table l1) as [[X1 T1] r1]. cbn [snd] in RL.
  destruct KN as [[KP _ _ _] _]. cbn [app] in KP. cbn [acts_ok seats_run] in O2, E. destruct (nth_error X1 i) as [x1|] eqn:N1; [|contradiction]. destruct O2 as [O2 O3].
  pose proof (act_shows X1 T1 i x1 ls p N1 O2) as SH. destruct (seat_act x1 T1 (Run (OpPoint ls p))) as [[x' T'] r0] eqn:EA. cbn [fst snd] in SH.
  pose proof (seats_show l2 i ls p NS (upd X1 i x') T') as S2. destruct (seats_run (upd X1 i x') T' l2) as [[X2 T2] r2].
  assert (ER: rs = r1 ++ r0 :: r2) by congruence. assert (X2 = X) as -> by congruence. assert (T2 = T) as -> by congruence.
  assert (r0 = Ok tt) as ->. { rewrite ER, nth_error_app2, RL, Nat.sub_diag in Hr by lia. cbn [nth_error] in Hr. congruence. }
  destruct (S2 (SH ltac:(intros n y Hy; destruct (KP n y Hy) as (j & ls' & Hj); exact (LT j (ls', y) Hj)) eq_refl) O3) as (x2 & cf2 & d2 & M1 & M2 & c & n & Hc & Hn & Hw & Hin).
  assert (x2 = x) as -> by congruence. assert (d2 = d) as -> by congruence. clear M1 M2 SH S2.
  destruct (place_nth _ _ _ _ Hn) as (k & ls' & -> & Nk & Ek).
  assert (ED: In (fst c, seen 1 (snd c) T) (shelf_parts (with_table d T))) by (unfold shelf_parts; apply in_map_iff; exists c; split; [reflexivity|exact Hc]).
  assert (SN: In (ls', T (1 + Z.of_nat k)) (seen 1 (snd c) T)) by (apply (nth_error_In _ k); now rewrite seen_nth, Nk).
  assert (W: wfc (seen 1 (snd c) T)).
  { apply distinct_wfc; [now apply (K4 i x cf d)|]. intros id _. apply Forall_forall. intros y Hy. destruct (K1 id y Hy) as (j & l0 & Hj).
    rewrite Forall_forall in AO. apply (AO _ Hj). }
  assert (SL': set_ok ls') by (pose proof (wf_sets _ W) as WS; rewrite Forall_forall in WS; exact (WS _ SN)).
  pose proof (same_setb_perm _ _ SL' Ek) as PM.
  assert (ES: sort_labels ls = sort_labels ls') by (symmetry; apply sort_perm_eq; [apply SL'|exact PM]).
  assert (MT: matches (seen 1 (snd c) T) q ls' = true).
  { apply matches_spec. split.
    - destruct q as [|k0 q']; [congruence|]. exists k0. split; [now left|]. apply occurs_spec. do 2 eexists. split; [exact SN|].
      apply (Permutation_in _ (Permutation_sym PM)). apply Hq. now left.
    - intros k0 Hk _. apply (Permutation_in _ (Permutation_sym PM)). now apply Hq. }
  assert (AN: answers (fst c, seen 1 (snd c) T) q a b = true).
  { unfold answers. cbn [fst snd]. unfold in_windowb in Hw. apply andb_true_iff. split; [lia|]. apply forallb_forall. intros [l0 ps] H0. cbn [fst snd].
    apply orb_true_iff. right. apply In_nth_error in H0 as (k0 & H0). rewrite seen_nth in H0. destruct (nth_error (snd c) k0) as [l9|] eqn:N9; [|discriminate].
    assert (l0 = l9) as -> by congruence. assert (ps = T (1 + Z.of_nat k0)) as -> by congruence.
    assert (k0 < length (snd c))%nat by (apply nth_error_Some; congruence).
    pose proof (K3 i x cf d Nx Ed c Hc (1 + Z.of_nat k0) ltac:(lia)) as NE. destruct (T (1 + Z.of_nat k0)) as [|y ys] eqn:TY; [congruence|].
    destruct (K1 (1 + Z.of_nat k0) y) as (j & l8 & Hj); [rewrite TY; now left|]. specialize (Hab _ _ Hj). cbn [snd] in Hab. unfold touchesb. cbn [existsb]. apply andb_true_iff. split; apply orb_true_iff; left; lia. }
  pose proof (piece_has (fst c, seen 1 (snd c) T) q a b ls' _ p W AN SN MT Hin Hp) as PI. rewrite <- ES in PI.
  destruct C as [[_ C]|(_ & r' & C & [_ A])]; [discriminate|]. injection C as <-.
  assert (PC: In p (concat (map (fun c => piece c q a b (sort_labels ls)) (shelf_parts (with_table d T))))).
  { apply in_concat. eexists. split; [|exact PI]. apply in_map_iff. exists (fst c, seen 1 (snd c) T). auto. }
  eexists. split; [|exact PC]. apply A. split; [|reflexivity]. intros EN. rewrite EN in PC. destruct PC.
Qed.

(** ** a check for acts that can be *)
Definition act_num (x : seat) (a : act) : bool :=
  match a with
  | Start cf => (0 <=? cf_size cf) && (se_last x <? next_start x) && (next_start x + cf_size cf <? 2 ^ 64)
  | Run o => match se_db x, o with
             | Some (cf, _), OpSwap st => (se_last x <? st) && (st + cf_size cf <? 2 ^ 64)
             | Some _, _ => true
             | None, _ => false
             end
  end.
Fixpoint acts_num (X : list seat) (T : table) (l : list (nat * act)) : bool :=
  match l with
  | [] => true
  | (i, a) :: l' => match nth_error X i with
                    | None => false
                    | Some x => act_num x a && let '(x', T', _) := seat_act x T a in acts_num (upd X i x') T' l'
                    end
  end.
Lemma acts_check l : forall X T, acts_num X T l = true ->
  (forall i cf, In (i, Start cf) l -> cf_st cf = TiKvDry /\ cf_ix cf = TiKvDry /\ ascii (cf_base cf) /\ cf_base cf <> []) ->
  Forall (fun x => ireq_ok (snd x)) (asked_of l) -> acts_ok X T l.
Proof.
  induction l as [|[i a] l IH]; intros X T N S W; cbn [acts_num acts_ok asked_of] in *; [exact I|].
  destruct (nth_error X i) as [x|]; [|discriminate]. apply andb_true_iff in N as [N1 N2]. split.
  - destruct a as [cf|o]; cbn [act_num act_ok] in *.
    + destruct (S i cf) as (S1 & S2 & S3 & S4); [now left|]. do 4 (split; [assumption|]). lia.
    + apply Forall_app in W as [W _]. destruct (se_db x) as [[cf d]|]; [|discriminate]. split; [destruct o; cbn [starts_ok]; [exact I|exact I|lia]|].
      rewrite Forall_forall in *. intros r Hr. apply (W (i, r)). now apply in_map.
  - destruct (seat_act x T a) as [[x' T'] r]. apply IH; [exact N2|intros j cf Hj; apply (S j); now right|]. destruct a; [exact W|now apply Forall_app in W as [_ W]].
Qed.
