(* Proofs about the locks: no deadlock, whatever order the locks let the waiting threads through. *)
From Coq Require Import ZifyBool ZifyNat.
From Verif Require Import Rust Prog Gorilla Storage StorageSpec Labels Indexer IndexSpec Chunk ChunkSpec Utils TiKvInit Db DbSpec SwapSpec WritersSpec LockSpec.

(** ** what a thread holds while it runs *)
Inductive hold := HCurR | HCurW | HSecR | HSecW | HCh (i : nat).
Lemma hold_dec (a b : hold) : {a = b} + {a <> b}.
Proof. decide equality. apply Nat.eq_dec. Defined.
Definition level (h : hold) : nat := match h with HCurR | HCurW => 0 | HSecR | HSecW => 1 | HCh _ => 2 end.
Definition rank (l : lock) : nat := match l with LCur => 0 | LSec => 1 | LChunk _ => 2 end.
Definition below (n : nat) (H : list hold) : Prop := Forall (fun h => (level h < n)%nat) H.

(* what holds before a command, n places of the heap being known to exist and H being held, when K
   is to hold after it *)
Definition cneed {X} (i : nat) (c : ccmd X) (n : nat) (H : list hold) : (X -> nat -> list hold -> Prop) -> Prop :=
  match c in ccmd X return (X -> nat -> list hold -> Prop) -> Prop with
  | CWriteLock => fun K => below 2 H /\ forall x m, (n <= m)%nat -> K x m (HCh i :: H)
  | CWriteUnlock _ => fun K => exists H', H = HCh i :: H' /\ forall x m, (n <= m)%nat -> K x m H'
  | CReadPass => fun K => below 2 H /\ forall x m, (n <= m)%nat -> K x m H
  | _ => fun K => forall x m, (n <= m)%nat -> K x m H
  end.
Definition need {X} (c : dcmd X) (n : nat) (H : list hold) : (X -> nat -> list hold -> Prop) -> Prop :=
  match c in dcmd X return (X -> nat -> list hold -> Prop) -> Prop with
  | DC i c => fun K => (i < n)%nat /\ cneed i c n H K
  | DF _ => fun K => forall x m, (n <= m)%nat -> K x m H
  | DAlloc d => fun K => w_locked (dc_world d) = false /\ forall x m, (n <= m)%nat -> (x < m)%nat -> K x m H
  | DCurRead => fun K => below 0 H /\ forall x m, (n <= m)%nat -> (fst (snd x) < m)%nat -> K x m (HCurR :: H)
  | DCurUnread => fun K => exists H', H = HCurR :: H' /\ forall x m, (n <= m)%nat -> K x m H'
  | DCurWrite => fun K => below 0 H /\ forall x m, (n <= m)%nat -> (fst (snd x) < m)%nat -> K x m (HCurW :: H)
  | DCurStore i => fun K => (i < n)%nat /\ forall x m, (n <= m)%nat -> K x m H
  | DCurUnwrite _ => fun K => exists H', H = HCurW :: H' /\ forall x m, (n <= m)%nat -> K x m H'
  | DSecRead => fun K => below 1 H /\ forall x m, (n <= m)%nat -> Forall (fun c => (fst c < m)%nat) (snd x) -> K x m (HSecR :: H)
  | DSecUnread => fun K => exists H', H = HSecR :: H' /\ forall x m, (n <= m)%nat -> K x m H'
  | DSecWrite => fun K => below 1 H /\ forall x m, (n <= m)%nat -> K x m (HSecW :: H)
  | DSecPush i => fun K => (i < n)%nat /\ forall x m, (n <= m)%nat -> K x m H
  | DSecUnwrite _ => fun K => exists H', H = HSecW :: H' /\ forall x m, (n <= m)%nat -> K x m H'
  end.
Fixpoint wp {A} (p : prog dcmd A) (n : nat) (H : list hold) (Q : A -> nat -> list hold -> Prop) : Prop :=
  match p with
  | Ret a => Q a n H
  | Do c k => need c n H (fun x m H' => wp (k x) m H' Q)
  end.
Lemma cneed_mono {X} i (c : ccmd X) n H (K K' : X -> nat -> list hold -> Prop) : (forall x m H', K x m H' -> K' x m H') -> cneed i c n H K -> cneed i c n H K'.
Proof. intros I. destruct c; cbn [cneed]; try (intros [Q R]; split; [exact Q|]; intros x m L; apply I, R, L); try (intros (H' & E & R); exists H'; split; [exact E|]; intros x m L; apply I, R, L); intros R x m L; apply I, R, L. Qed.
Lemma need_mono {X} (c : dcmd X) n H (K K' : X -> nat -> list hold -> Prop) : (forall x m H', K x m H' -> K' x m H') -> need c n H K -> need c n H K'.
Proof.
  intros I. destruct c; cbn [need].
  1: { intros [L R]. split; [exact L|]. exact (cneed_mono _ _ _ _ _ _ I R). }
  all: firstorder.
Qed.
Lemma wp_mono {A} (p : prog dcmd A) : forall n H (Q Q' : A -> nat -> list hold -> Prop), (forall a m H', Q a m H' -> Q' a m H') -> wp p n H Q -> wp p n H Q'.
Proof.
  induction p as [a|X c k IH]; intros n H Q Q' I; cbn [wp]; [apply I|].
  apply need_mono. intros x m H'. now apply IH.
Qed.
Lemma wp_bind {A B} (p : prog dcmd A) (f : A -> prog dcmd B) : forall n H Q, wp p n H (fun a m H' => wp (f a) m H' Q) -> wp (bind p f) n H Q.
Proof.
  induction p as [a|X c k IH]; intros n H Q; cbn [wp bind]; [exact (fun x => x)|].
  apply need_mono. intros x m H'. now apply IH.
Qed.
Lemma wp_qbind {A B} (p : prog dcmd (res A)) (f : A -> prog dcmd (res B)) n H Q :
  wp p n H (fun r m H' => match r with Ok a => wp (f a) m H' Q | Err e => Q (Err e) m H' | Panic => Q Panic m H' end) -> wp (qbind p f) n H Q.
Proof. intros W. unfold qbind. apply wp_bind. eapply wp_mono; [|exact W]. intros [a|e|] m H'; exact (fun x => x). Qed.
(* holding the same as before *)
Definition kept {A} (n : nat) (H : list hold) : A -> nat -> list hold -> Prop := fun _ m H' => (n <= m)%nat /\ H' = H.

(** *** programs of files *)
Fixpoint rets {C A} (P : A -> Prop) (p : prog C A) : Prop :=
  match p with
  | Ret a => P a
  | Do c k => forall x, rets P (k x)
  end.
Lemma rets_bind {C A B} (P : B -> Prop) (p : prog C A) (f : A -> prog C B) : rets (fun a => rets P (f a)) p -> rets P (bind p f).
Proof. induction p as [a|X c k IH]; cbn [rets bind]; [exact (fun x => x)|]. intros R x. now apply IH. Qed.
Lemma rets_true {C A} (p : prog C A) : rets (fun _ => True) p.
Proof. induction p as [a|X c k IH]; cbn [rets]; [exact I|exact IH]. Qed.
Lemma rets_mono {C A} (P Q : A -> Prop) (p : prog C A) : (forall a, P a -> Q a) -> rets P p -> rets Q p.
Proof. intros I. induction p as [a|X c k IH]; cbn [rets]; [apply I|]. intros R x. apply IH, R. Qed.
Lemma rets_any {C A} (P : A -> Prop) (p : prog C A) : (forall a, P a) -> rets P p.
Proof. intros I. eapply rets_mono; [|apply (rets_true p)]. intros a _. apply I. Qed.
Lemma rets_qbind {C A B} (P : res B -> Prop) (p : prog C (res A)) (f : A -> prog C (res B)) : P Panic -> (forall e, P (Err e)) ->
  rets (fun r => match r with Ok a => rets P (f a) | _ => True end) p -> rets P (qbind p f).
Proof. intros P1 P2 R. unfold qbind. apply rets_bind. eapply rets_mono; [|exact R]. intros [a|e|] K; [exact K|apply P2|exact P1]. Qed.
Lemma wp_files {A} (p : prog fcmd A) (H : list hold) : forall n (Q : A -> nat -> list hold -> Prop), rets (fun a => forall m, (n <= m)%nat -> Q a m H) p -> wp (lift (@DF) p) n H Q.
Proof.
  induction p as [a|X c k IH]; intros n Q R; cbn [lift wp rets need] in *; [apply R; lia|]. intros x m L. apply IH.
  eapply rets_mono; [|apply R]. intros a K m' L'. apply K. lia.
Qed.
Lemma rets_run {C W A} (h : handler C W) (P : A -> Prop) (p : prog C A) : forall w a w', rets P p -> run h p w = Some (a, w') -> P a.
Proof.
  induction p as [a0|X c k IH]; intros w a w' R; cbn [run rets] in *; [intros [= <- _]; exact R|].
  destruct (h X c w) as [[x w1]|]; [|discriminate]. now apply IH.
Qed.

(* a new chunk is not locked *)
Definition fresh (r : res dchunk) : Prop := match r with Ok d => w_locked (dc_world d) = false | _ => True end.
Lemma create_fresh cf start : rets fresh (create_chunk cf start).
Proof.
  unfold create_chunk. apply rets_bind, rets_any. intros ident. destruct (arith_u _ _ _) as [en|e|]; [|exact I|exact I].
  apply rets_bind, rets_any. intros [[]|e|]; [|exact I|exact I]. apply rets_qbind; [exact I|intros e; exact I|]. apply rets_any. intros [st|e|]; [|exact I|exact I].
  apply rets_qbind; [exact I|intros e; exact I|]. apply rets_any. intros [ix|e|]; [|exact I|exact I]. reflexivity.
Qed.
Lemma entry_fresh cf name : rets (fun r => match r with Ok (Some d) => w_locked (dc_world d) = false | _ => True end) (read_entry cf name).
Proof.
  unfold read_entry. destruct (extract_name _) as [dn|e|]; [|exact I|exact I]. destruct (decode_chunk_dir dn) as [[s e]|e|]; [|exact I|exact I].
  apply rets_qbind; [exact I|intros x; exact I|]. apply rets_any. intros [o|x|]; [|exact I|exact I].
  apply rets_bind, rets_any. intros now. cbv zeta. apply rets_qbind; [exact I|intros x; exact I|]. apply rets_any. intros [[[st ss]|]|x|]; try exact I;
  (apply rets_qbind; [exact I|intros x; exact I|]; apply rets_any; intros [[[ix si]|]|x|]; try exact I). reflexivity.
Qed.
Lemma forM_rets {C A B} (P : B -> Prop) (f : A -> prog C (res B)) l : (forall a, rets (fun r => match r with Ok b => P b | _ => True end) (f a)) ->
  rets (fun r => match r with Ok bs => Forall P bs | _ => True end) (forM f l).
Proof.
  intros H. induction l as [|a l IH]; cbn [forM]; [constructor|]. apply rets_qbind; [exact I|intros e; exact I|].
  eapply rets_mono; [|apply H]. intros [b|e|] Hb; [|exact I|exact I]. apply rets_qbind; [exact I|intros e; exact I|].
  eapply rets_mono; [|exact IH]. intros [bs|e|] Hbs; [|exact I|exact I]. now constructor.
Qed.
Lemma new_fresh cf : rets (fun r => match r with Ok (old, cur) => Forall (fun d => w_locked (dc_world d) = false) (old ++ [cur]) | _ => True end) (db_new cf).
Proof.
  unfold db_new. apply rets_qbind; [exact I|intros e; exact I|]. apply rets_any. intros [[]|e|]; [|exact I|exact I].
  apply rets_qbind; [exact I|intros e; exact I|].
  assert (K: rets (fun r => match r with Ok l => Forall (fun d => w_locked (dc_world d) = false) l | _ => True end) (read_existing_chunk cf)).
  { unfold read_existing_chunk. apply rets_qbind; [exact I|intros e; exact I|]. apply rets_any. intros [names|e|]; [|exact I|exact I].
    apply rets_qbind; [exact I|intros e; exact I|]. eapply rets_mono; [|apply (forM_rets (fun o => match o with Some d => w_locked (dc_world d) = false | None => True end)); intros a; eapply rets_mono; [|apply entry_fresh]; intros [[d|]|e|]; exact (fun x => x)].
    intros [l|e|] F; [|exact I|exact I]. cbn [rets].
    assert (F': Forall (fun d => w_locked (dc_world d) = false) (somes l)).
    { clear - F. induction F as [|[d|] l0 Hd F IH]; cbn [somes]; [constructor|now constructor|assumption]. }
    clear - F'. unfold sort_chunks. induction F' as [|d l0 Hd F IH]; cbn [fold_right]; [constructor|]. revert IH. generalize (fold_right insert_chunk [] l0) as l'.
    intros l' F2. induction F2 as [|y l' Hy F2 IH]; cbn [insert_chunk]; [now constructor|]. destruct (chunk_cmp _ _); [now repeat constructor|now repeat constructor|now constructor]. }
  eapply rets_mono; [|exact K]. intros [old|e|] F; [|exact I|exact I]. apply rets_bind, rets_any. intros now.
  apply rets_qbind; [exact I|intros e; exact I|]. eapply rets_mono; [|apply create_fresh]. intros [cur|e|] Hc; [|exact I|exact I]. cbn [rets].
  apply Forall_app. split; [exact F|]. constructor; [exact Hc|constructor].
Qed.

(** *** programs of a chunk *)
Definition lneed {X} (c : ccmd X) (held : bool) : (X -> bool -> Prop) -> Prop :=
  match c in ccmd X return (X -> bool -> Prop) -> Prop with
  | CWriteLock => fun K => held = false /\ forall x, K x true
  | CWriteUnlock _ => fun K => held = true /\ forall x, K x false
  | CReadPass => fun K => held = false /\ forall x, K x false
  | _ => fun K => forall x, K x held
  end.
Fixpoint cwp {A} (p : prog ccmd A) (held : bool) (Q : A -> bool -> Prop) : Prop :=
  match p with
  | Ret a => Q a held
  | Do c k => lneed c held (fun x b => cwp (k x) b Q)
  end.
Lemma lneed_mono {X} (c : ccmd X) b (K K' : X -> bool -> Prop) : (forall x b', K x b' -> K' x b') -> lneed c b K -> lneed c b K'.
Proof. intros I. destruct c; cbn [lneed]; firstorder. Qed.
Lemma cwp_mono {A} (p : prog ccmd A) : forall b (Q Q' : A -> bool -> Prop), (forall a b', Q a b' -> Q' a b') -> cwp p b Q -> cwp p b Q'.
Proof. induction p as [a|X c k IH]; intros b Q Q' I; cbn [cwp]; [apply I|]. apply lneed_mono. intros x b'. now apply IH. Qed.
Lemma cwp_bind {A B} (p : prog ccmd A) (f : A -> prog ccmd B) : forall b Q, cwp p b (fun a b' => cwp (f a) b' Q) -> cwp (bind p f) b Q.
Proof. induction p as [a|X c k IH]; intros b Q; cbn [cwp bind]; [exact (fun x => x)|]. apply lneed_mono. intros x b'. now apply IH. Qed.
Definition same_held {A} (b : bool) : A -> bool -> Prop := fun _ b' => b' = b.
Lemma cwp_qbind {A B} (p : prog ccmd (res A)) (f : A -> prog ccmd (res B)) b : cwp p b (same_held b) -> (forall a, cwp (f a) b (same_held b)) ->
  cwp (qbind p f) b (same_held b).
Proof. intros W F. unfold qbind. apply cwp_bind. eapply cwp_mono; [|exact W]. intros [a|e|] b' ->; [apply F|reflexivity|reflexivity]. Qed.
Lemma cwp_ix {A} (p : prog kcmd A) b : cwp (lift (@CIx) p) b (same_held b).
Proof. induction p as [a|X c k IH]; cbn [lift cwp lneed]; [reflexivity|]. intros x. apply IH. Qed.
Lemma cwp_st {A} (p : prog kcmd A) b : cwp (lift (@CSt) p) b (same_held b).
Proof. induction p as [a|X c k IH]; cbn [lift cwp lneed]; [reflexivity|]. intros x. apply IH. Qed.
Lemma cwp_forM {A B} (f : A -> prog ccmd (res B)) l b : (forall a, cwp (f a) b (same_held b)) -> cwp (forM f l) b (same_held b).
Proof.
  intros H. induction l as [|a l IH]; cbn [forM]; [reflexivity|]. apply cwp_qbind; [apply H|]. intros x. apply cwp_qbind; [exact IH|]. intros bs. reflexivity.
Qed.
Lemma cwp_lock {A} (body : prog ccmd (res A)) : cwp body true (same_held true) -> cwp (with_write_lock body) false (same_held false).
Proof.
  intros W. unfold with_write_lock. split; [reflexivity|]. intros [|]; cbn [bind call].
  - split; [reflexivity|]. intros _. reflexivity.
  - apply cwp_bind. eapply cwp_mono; [|exact W]. intros r b ->. split; [reflexivity|]. intros _. reflexivity.
Qed.
Lemma cwp_insert ch ls p : cwp (chunk_insert ch ls p) false (same_held false).
Proof.
  apply cwp_lock. unfold insert_body. destruct (negb _); [reflexivity|]. apply cwp_qbind; [apply cwp_ix|]. intros [id|].
  - apply cwp_bind. eapply cwp_mono; [|apply cwp_st]. intros r b ->. reflexivity.
  - intros new. apply cwp_qbind; [apply cwp_ix|]. intros _. apply cwp_qbind; [apply cwp_st|]. intros _. reflexivity.
Qed.
Lemma cwp_close : cwp chunk_close false (same_held false).
Proof. apply cwp_lock. intros x. reflexivity. Qed.
Lemma cwp_query ch bs o ls s e : cwp (chunk_query ch bs o ls s e) false (same_held false).
Proof.
  unfold chunk_query. split; [reflexivity|]. intros [|]; cbn [bind call]; [reflexivity|]. destruct (negb _); [reflexivity|].
  apply cwp_qbind; [apply cwp_ix|]. intros cs. apply cwp_qbind; [|intros f; reflexivity]. apply cwp_forM. intros c. apply cwp_qbind; [apply cwp_st|]. intros d. reflexivity.
Qed.
Lemma wp_chunk {A} (p : prog ccmd A) i H : below 2 H -> forall n (b : bool) (Q : A -> bool -> Prop), (i < n)%nat -> cwp p b Q ->
  wp (lift (fun X c => @DC X i c) p) n (if b then HCh i :: H else H) (fun a m H' => (n <= m)%nat /\ exists b', Q a b' /\ H' = if b' : bool then HCh i :: H else H).
Proof.
  intros HB. induction p as [a|X c k IH]; intros n b Q L W; cbn [lift wp cwp] in *; [split; [lia|]; exists b; now split|].
  split; [exact L|].
  assert (G: forall x m b', (n <= m)%nat -> cwp (k x) b' Q ->
    wp (lift (fun X c => @DC X i c) (k x)) m (if b' then HCh i :: H else H) (fun a m' H' => (n <= m')%nat /\ exists b', Q a b' /\ H' = if b' : bool then HCh i :: H else H)).
  { intros x m b' Lm Wk. eapply wp_mono; [|apply (IH x m b' Q); [lia|exact Wk]]. intros a m' H' [Lm' R]. split; [lia|exact R]. }
  destruct c; cbn [cneed lneed] in *; try (intros x m Lm; apply (G x m b Lm); apply W).
  - destruct W as [-> W]. split; [exact HB|]. intros x m Lm. apply (G x m true Lm), W.
  - destruct W as [-> W]. exists H. split; [reflexivity|]. intros x m Lm. apply (G x m false Lm), W.
  - destruct W as [-> W]. split; [exact HB|]. intros x m Lm. apply (G x m false Lm), W.
Qed.
Lemma wp_call {A} (p : prog ccmd A) i H n : below 2 H -> (i < n)%nat -> cwp p false (same_held false) -> wp (lift (fun X c => @DC X i c) p) n H (kept n H).
Proof.
  intros HB L W. eapply wp_mono; [|exact (wp_chunk p i H HB n false _ L W)]. intros a m H' (Lm & b & -> & ->). now split.
Qed.

(** *** the operations of the database *)
Lemma wp_current {A} (body : nat -> chunk -> prog dcmd (res A)) n : (forall i ch m, (n <= m)%nat -> (i < m)%nat -> wp (body i ch) m [HCurR] (kept m [HCurR])) ->
  wp (with_current body) n [] (kept n []).
Proof.
  intros W. unfold with_current. split; [constructor|]. intros [p [i ch]] m Lm Li. cbn [bind fst snd] in *. destruct p.
  - exists []. split; [reflexivity|]. intros ? m' Lm'. split; [lia|reflexivity].
  - apply wp_bind. eapply wp_mono; [|apply W; assumption]. intros r m' H' [L' ->]. exists []. split; [reflexivity|]. intros ? m2 L2. split; [lia|reflexivity].
Qed.
Lemma below_cur : below 2 [HCurR]. Proof. constructor; [cbn; lia|constructor]. Qed.
Lemma wp_write_all i ch ls pts : forall n, (i < n)%nat -> wp (write_all i ch ls pts) n [HCurR] (kept n [HCurR]).
Proof.
  induction pts as [|p pts IH]; intros n L; cbn [write_all]; [split; [lia|reflexivity]|].
  assert (G: forall m, (n <= m)%nat -> wp (write_all i ch ls pts) m [HCurR] (kept n [HCurR])).
  { intros m Lm. eapply wp_mono; [|apply (IH m); lia]. intros a m' H' [L' ->]. split; [lia|reflexivity]. }
  destruct (batch_passes ch p); [|apply G; lia]. apply wp_bind. eapply wp_mono; [|exact (wp_call _ i _ n below_cur L (cwp_insert ch ls p))].
  intros r m H' [Lm ->]. destruct r as [u|e|]; [apply (G m Lm)| |split; [lia|reflexivity]].
  apply wp_qbind. eapply wp_mono; [|apply (G m Lm)]. intros [b|e'|] m' H' [L' ->]; (split; [lia|reflexivity]).
Qed.
Lemma wp_point ls p n : wp (db_write_point ls p) n [] (kept n []).
Proof. apply wp_current. intros i ch m _ Li. exact (wp_call _ i _ m below_cur Li (cwp_insert ch ls p)). Qed.
Lemma wp_points ls pts n : wp (db_write_points ls pts) n [] (kept n []).
Proof.
  apply wp_current. intros i ch m _ Li. apply wp_qbind. eapply wp_mono; [|exact (wp_write_all i ch ls pts m Li)].
  intros [b|e|] m' H' K; exact K.
Qed.
Lemma below_sec : below 2 [HSecR]. Proof. constructor; [cbn; lia|constructor]. Qed.
Lemma wp_secondaries hs bs o ls s e cs : forall m n, Forall (fun c => (fst c < n)%nat) cs -> wp (query_secondaries hs bs o ls s e cs m) n [HSecR] (kept n [HSecR]).
Proof.
  induction cs as [|[i ch] cs IH]; intros m n F; cbn [query_secondaries]; [split; [lia|reflexivity]|]. inversion F as [|? ? L F']; subst. cbn [fst] in L.
  assert (G: forall m n', (n <= n')%nat -> wp (query_secondaries hs bs o ls s e cs m) n' [HSecR] (kept n [HSecR])).
  { intros m' n' L'. eapply wp_mono; [|apply (IH m' n'); eapply Forall_impl; [|exact F']; intros c; cbn; lia]. intros a n2 H' [L2 ->]. split; [lia|reflexivity]. }
  destruct (is_with_range ch s e); [|apply G; lia]. apply wp_bind. eapply wp_mono; [|exact (wp_call _ i _ n below_sec L (cwp_query ch bs o ls s e))].
  intros r n' H' [L' ->]. destruct r as [l|x|]; [|apply (G m n' L')|split; [lia|reflexivity]]. destruct (merge _ m l) as [m'|x|]; [apply (G m' n' L')| |]; (split; [lia|reflexivity]).
Qed.
Lemma wp_query hs bs o ls s e n : wp (db_query hs bs o ls s e) n [] (kept n []).
Proof.
  unfold db_query. apply wp_qbind. eapply wp_mono; [|apply wp_current].
  - intros [m|x|] n' H' [L ->]; [|split; [lia|reflexivity]|split; [lia|reflexivity]]. split; [constructor|]. intros [p cs] n2 L2 F. cbn [bind fst snd] in *.
    apply wp_bind. eapply wp_mono with (Q := kept n2 [HSecR]).
    + intros r n3 H3 [L3 ->]. exists []. split; [reflexivity|]. intros ? n4 L4. split; [lia|reflexivity].
    + destruct p; [split; [lia|reflexivity]|]. apply wp_secondaries. apply Forall_rev. exact F.
  - intros i ch m _ Li. apply wp_bind. eapply wp_mono; [|exact (wp_call _ i _ m below_cur Li (cwp_query ch bs o ls s e))]. intros r m' H' K. exact K.
Qed.
Lemma wp_swap cf start n : wp (db_swap cf start) n [] (kept n []).
Proof.
  unfold db_swap. apply wp_qbind, wp_files. eapply rets_mono; [|apply create_fresh]. intros [d|e|] Hd m Lm; [|split; [lia|reflexivity]|split; [lia|reflexivity]].
  split; [exact Hd|]. intros new m1 L1 Ln. cbn [bind]. apply wp_qbind. eapply wp_mono with (Q := kept m1 []).
  - intros r m2 H2 [L2 ->]. destruct r as [u|e|]; [|split; [lia|reflexivity]|split; [lia|reflexivity]]. split; [constructor|]. intros [p [old ch]] m3 L3 Lo. cbn [bind fst snd] in *.
    destruct p; [exists []; split; [reflexivity|]; intros ? m4 L4; split; [lia|reflexivity]|]. apply wp_bind.
    eapply wp_mono; [|exact (wp_call _ old [HCurW] m3 ltac:(constructor; [cbn; lia|constructor]) Lo cwp_close)]. intros r m4 H4 [L4 ->]. destruct r as [[]|x|]; cbn [bind call].
    + split; [lia|]. intros ? m5 L5. exists []. split; [reflexivity|]. intros ? m6 L6. split; [lia|reflexivity].
    + exists []. split; [reflexivity|]. intros ? m6 L6. split; [lia|reflexivity].
    + exists []. split; [reflexivity|]. intros ? m6 L6. split; [lia|reflexivity].
  - apply wp_current. intros old ch m2 _ Lo. split; [constructor; [cbn; lia|constructor]|]. intros p m3 L3. cbn [bind]. destruct p.
    + exists [HCurR]. split; [reflexivity|]. intros ? m4 L4. split; [lia|reflexivity].
    + split; [lia|]. intros ? m4 L4. exists [HCurR]. split; [reflexivity|]. intros ? m5 L5. split; [lia|reflexivity].
Qed.
Lemma wp_sequence {A} (ps : list (prog dcmd (res A))) : (forall p n, In p ps -> wp p n [] (kept n [])) -> forall n, wp (sequence ps) n [] (kept n []).
Proof.
  induction ps as [|p ps IH]; intros W n; cbn [sequence]; [split; [lia|reflexivity]|]. apply wp_bind. eapply wp_mono; [|apply W; now left].
  intros r m H' [L ->].
  assert (G: wp (let! rs := sequence ps in Ret (r :: rs)) m [] (kept n [])).
  { apply wp_bind. eapply wp_mono; [|apply (IH (fun q n Hq => W q n (or_intror Hq)))]. intros rs m' H' [L' ->]. split; [lia|reflexivity]. }
  destruct r; [exact G|exact G|split; [lia|reflexivity]].
Qed.
Definition clean {A} (p : prog dcmd A) : Prop := forall n, wp p n [] (fun _ _ H => H = []).
Lemma kept_clean {A B} (p : prog dcmd A) (f : A -> B) : (forall n, wp p n [] (kept n [])) -> clean (let! x := p in Ret (f x)).
Proof. intros W n. apply wp_bind. eapply wp_mono; [|apply W]. intros a m H' [_ ->]. reflexivity. Qed.
Lemma threads_clean cf starts cs qs : Forall clean (threads cf starts cs qs).
Proof.
  unfold threads. constructor; [|apply Forall_app; split].
  - apply kept_clean, wp_sequence. intros p n H. apply in_map_iff in H as (s & <- & _). apply wp_swap.
  - rewrite Forall_forall. intros q H. apply in_map_iff in H as (c & <- & _). apply kept_clean, wp_sequence. intros p n H.
    apply in_map_iff in H as ([ls t|ls pts] & <- & _); [apply wp_point|apply wp_points].
  - rewrite Forall_forall. intros q H. apply in_map_iff in H as (c & <- & _). apply kept_clean, wp_sequence. intros p n H.
    apply in_map_iff in H as (a & <- & _). apply wp_query.
Qed.
