(* What a query may answer when every store read is answered by some content between two given
   ones. *)
From Coq Require Import ZifyBool ZifyNat Permutation Sorted.
From Verif Require Import Rust Prog Gorilla GorillaSpec Storage StorageSpec StorageProofs Compactor Labels Indexer IndexSpec
  LabelProofs IntersectProofs IndexProofs IndexHist Chunk ChunkSpec ChunkProofs ConcSpec ReadsSpec.
Ltac Zify.zify_post_hook ::= Z.div_mod_to_equations.

(** ** programs whose commands are answered by a relation *)
Fixpoint may {C A} (G : forall X, C X -> X -> Prop) (p : prog C A) (a : A) : Prop :=
  match p with
  | Ret b => a = b
  | Do c k => exists x, G _ c x /\ may G (k x) a
  end.

Lemma may_bind {C A B} G (p : prog C A) (f : A -> prog C B) b : may G (bind p f) b -> exists a, may G p a /\ may G (f a) b.
Proof.
  induction p as [a|X c k IH]; cbn [bind may]; [eauto|]. intros (x & Hx & H). apply IH in H as (a & H1 & H2). eauto.
Qed.
Lemma may_qbind {C A B} G (p : prog C (res A)) (f : A -> prog C (res B)) r : may G (qbind p f) r ->
  (exists a, may G p (Ok a) /\ may G (f a) r) \/ (exists e, may G p (Err e) /\ r = Err e) \/ (may G p Panic /\ r = Panic).
Proof.
  intros H. apply may_bind in H as ([a|e|] & H1 & H2); [left|right; left|right; right]; eauto.
Qed.
Lemma may_lift {C D A} (F : forall X, C X -> D X) G (p : prog C A) a :
  may G (lift F p) a -> may (fun X c => G X (F X c)) p a.
Proof. induction p as [b|X c k IH]; cbn [lift may]; [auto|]. intros (x & H1 & H2). eauto. Qed.
Lemma may_forM {C A B} G (f : A -> prog C (res B)) (P : A -> B -> Prop) l r :
  (forall x b, In x l -> may G (f x) b -> exists v, b = Ok v /\ P x v) -> may G (forM f l) r ->
  exists vs, r = Ok vs /\ Forall2 P l vs.
Proof.
  revert r. induction l as [|x l IH]; intros r H M; cbn [forM] in M.
  - exists []. split; [exact M|constructor].
  - apply may_qbind in M as [(b & M1 & M2)|[(e & M1 & ->)|[M1 ->]]].
    + destruct (H x _ (or_introl eq_refl) M1) as (v & E & Pv). injection E as ->.
      apply may_qbind in M2 as [(bs & M2 & M3)|[(e & M2 & ->)|[M2 ->]]].
      * destruct (IH _ (fun y c Hy => H y c (or_intror Hy)) M2) as (vs & E & Fv). injection E as ->.
        exists (v :: vs). split; [exact M3|]. now constructor.
      * destruct (IH _ (fun y c Hy => H y c (or_intror Hy)) M2) as (vs & E & _). discriminate.
      * destruct (IH _ (fun y c Hy => H y c (or_intror Hy)) M2) as (vs & E & _). discriminate.
    + destruct (H x _ (or_introl eq_refl) M1) as (v & E & _). discriminate.
    + destruct (H x _ (or_introl eq_refl) M1) as (v & E & _). discriminate.
Qed.

(** ** the index *)
Section Index.
  Variables (ix : indexer) (R : reg) (lo : nat).
  Hypothesis (Hi : ids_ok R) (Hs : sets_ok R) (Ha : ascending (map fst R)).

  (* a get sees the index with some of the registrations, at least the first [lo] *)
  Definition some_ix (s : kv) (n : nat) : Prop := (lo <= n)%nat /\ rep ix s (firstn n R).
  Definition GI X (c : kcmd X) : X -> Prop :=
    match c in kcmd X return X -> Prop with
    | KGet k => fun x => exists s n, some_ix s n /\ x = Ok (kv_get s k)
    | KSet _ _ => fun _ => False
    end.

  Lemma firstn_In {A} n (l : list A) x : In x (firstn n l) -> In x l.
  Proof. intros H. rewrite <- (firstn_skipn n l). apply in_app_iff. now left. Qed.
  Lemma firstn_le {A} n m (l : list A) x : (n <= m)%nat -> In x (firstn n l) -> In x (firstn m l).
  Proof. intros L H. replace n with (Nat.min n m) in H by lia.
    rewrite <- firstn_firstn in H. now apply firstn_In in H. Qed.

  Lemma ids_ok_firstn n : ids_ok (firstn n R).
  Proof. unfold ids_ok in *. rewrite Forall_forall in *. intros x Hx. apply Hi. now apply firstn_In in Hx. Qed.

  (* the ids found for a label *)
  Definition ids_at (l : label) (v : list Z) : Prop := exists n, (lo <= n)%nat /\ v = ids_of (firstn n R) l.
  Definition nonempty (v : list Z) : bool := match v with [] => false | _ => true end.

  Lemma ids_at_ok l v : ids_at l v -> Forall id_ok v.
  Proof. intros (n & _ & ->). apply ids_of_ok, ids_ok_firstn. Qed.

  Lemma contains_may o q r : Forall lab_ok q -> may GI (series_id_contains_labels ix o q) r ->
    exists vs, Forall2 ids_at q vs /\ r = finish (intersect_time_series_id_vec o (filter nonempty vs)).
  Proof.
    intros Hq. destruct ix as [|ident] eqn:Eix; cbn [series_id_contains_labels].
    - unfold sled_contains. intros M.
      assert (F: forall r', may GI (forM sled_get_id q) r' ->
        exists vs, r' = Ok vs /\ Forall2 (fun l v => exists u, ids_at l u /\ v = if nonempty u then Some u else None) q vs).
      { intros r' M'. apply (may_forM _ _ _ _ _) with (2 := M'). intros l b Hl Mb.
        unfold sled_get_id in Mb. rewrite Forall_forall in Hq. specialize (Hq l Hl).
        apply may_qbind in Mb as [(a & M1 & M2)|[(e & M1 & _)|[M1 _]]]; cbn [may call] in *.
        2:{ destruct M1 as (x & (s & n & _ & Ex) & E). congruence. }
        2:{ destruct M1 as (x & (s & n & _ & Ex) & E). congruence. }
        destruct M1 as (x & (s & n & (Ln & Rp) & Ex) & E). subst x. injection E as ->.
        destruct Rp as (_ & HR & _). specialize (HR l Hq). rewrite Eix in HR. unfold rkey, pfx in HR. cbn [app] in HR. rewrite HR in M2.
        pose proof (ids_of_ok _ l (ids_ok_firstn n)) as Hids.
        destruct (ids_of (firstn n R) l) as [|x ids] eqn:E.
        - exists None. split; [exact M2|]. exists []. split; [exists n; auto|reflexivity].
        - rewrite sled_ids_decode in M2 by (congruence || assumption). cbn [rmap] in M2.
          exists (Some (x :: ids)). split; [exact M2|]. exists (x :: ids). split; [exists n; auto|reflexivity]. }
      apply may_qbind in M as [(a & M1 & M2)|[(e & M1 & ->)|[M1 ->]]]; destruct (F _ M1) as (vs & E & Fv); try discriminate.
      injection E as ->. cbn [may] in M2. subst r. clear M1 F.
      assert (X: exists us, Forall2 ids_at q us /\ somes vs = filter nonempty us).
      { clear Hq. induction Fv as [|l v q' vs' (u & Hu & ->) Fv (us & F1 & F2)]; [exists []; split; [constructor|reflexivity]|].
        exists (u :: us). split; [now constructor|]. cbn [somes flat_map filter]. unfold somes in F2. rewrite F2. destruct (nonempty u); reflexivity. }
      destruct X as (us & X1 & X2). exists us. split; [assumption|]. now rewrite X2.
    - unfold tikv_contains. intros M. apply may_bind in M as (vals & M1 & M2). cbn [may] in M2.
      assert (X: exists us, Forall2 ids_at q us /\ vals = map (enc_ids (TiKvIndexer ident)) (filter nonempty us)).
      { clear M2. revert vals M1. induction Hq as [|l q' Hl Hq' IH]; intros vals M; cbn [map tikv_gets] in M.
        - exists []. split; [constructor|exact M].
        - cbn [bind call may] in M. destruct M as (x & (s & n & (Ln & Rp) & ->) & M).
          apply may_bind in M as (rest & M1 & M2). cbn [may] in M2. destruct (IH _ M1) as (us & F1 & ->).
          destruct Rp as (_ & HR & _). specialize (HR l Hl). rewrite Eix in HR. unfold rkey, pfx in HR. rewrite HR in M2.
          exists (ids_of (firstn n R) l :: us). split; [constructor; [exists n; auto|assumption]|].
          destruct (ids_of (firstn n R) l); cbn [nonempty filter map]; exact M2. }
      destruct X as (us & F1 & ->). exists us. split; [assumption|]. rewrite M2.
      assert (D: mapM (fun v => mapM id_of_bytes (chunks 8 v)) (map (enc_ids (TiKvIndexer ident)) (filter nonempty us)) = Ok (filter nonempty us)).
      { apply mapM_ok. assert (H: Forall (Forall id_ok) us).
        { clear -F1 Hi. induction F1 as [|l v q vs Hv F1 IH]; constructor; [eapply ids_at_ok; eassumption|assumption]. }
        clear -H. induction H as [|v us Hv H IH]; cbn [filter]; [constructor|]. destruct (nonempty v); [|assumption].
        cbn [map]. constructor; [|assumption]. now apply tikv_ids_decode. }
      rewrite D. reflexivity.
  Qed.

  Lemma known_mono n m l : (n <= m)%nat -> known (firstn n R) l = true -> known (firstn m R) l = true.
  Proof.
    intros L H. unfold known in *. apply existsb_exists in H as (e & H1 & H2). apply existsb_exists. exists e. split; [|assumption].
    now apply (firstn_le n m).
  Qed.
  Lemma known_all n l : known (firstn n R) l = true -> known R l = true.
  Proof.
    intros H. unfold known in *. apply existsb_exists in H as (e & H1 & H2). apply existsb_exists. exists e. split; [|assumption].
    now apply firstn_In in H1.
  Qed.
  Lemma asc_firstn n : ascending (map fst (firstn n R)).
  Proof.
    assert (E: map fst R = map fst (firstn n R) ++ map fst (skipn n R)) by (rewrite <- map_app; f_equal; symmetry; apply firstn_skipn).
    rewrite E in Ha. clear E. revert Ha. generalize (map fst (firstn n R)) (map fst (skipn n R)). intros a b. induction a as [|x a IH]; intros H; [constructor|].
    cbn [app] in H. apply asc_inv in H as [H1 H2]. constructor; [now apply IH|]. apply Forall_app in H2. apply H2.
  Qed.

  (* the registrations a search may find *)
  Definition sees (q : list label) (e : Z * list label) : Prop :=
    In e R /\ (exists l, In l q /\ has (snd e) l = true) /\
    (forall l, In l q -> known (firstn lo R) l = true -> has (snd e) l = true).
  Definition must_see (q : list label) (e : Z * list label) : Prop :=
    In e (firstn lo R) /\ (exists l, In l q /\ has (snd e) l = true) /\
    (forall l, In l q -> known R l = true -> has (snd e) l = true).

  Lemma Forall2_In_r {A B} (P : A -> B -> Prop) l m y : Forall2 P l m -> In y m -> exists x, In x l /\ P x y.
  Proof. induction 1 as [|a b l m H F IH]; intros Hy; [contradiction|]. destruct Hy as [->|Hy]; [exists a; split; [now left|assumption]|].
    destruct (IH Hy) as (x & H1 & H2). exists x. split; [now right|assumption]. Qed.
  Lemma Forall2_In_l {A B} (P : A -> B -> Prop) l m x : Forall2 P l m -> In x l -> exists y, In y m /\ P x y.
  Proof. induction 1 as [|a b l m H F IH]; intros Hy; [contradiction|]. destruct Hy as [->|Hy]; [exists b; split; [now left|assumption]|].
    destruct (IH Hy) as (y & H1 & H2). exists y. split; [now right|assumption]. Qed.

  Lemma found_ids o q r : Forall lab_ok q -> may GI (series_id_contains_labels ix o q) r ->
    exists E, r = Ok (map fst E) /\ ascending (map fst E) /\ Forall (sees q) E /\ (forall e, must_see q e -> In e E).
  Proof.
    intros Hq M. apply contains_may in M as (vs & F & ->); [|assumption].
    assert (FA: Forall ascending (filter nonempty vs)).
    { apply Forall_forall. intros v Hv. apply filter_In in Hv as [Hv _]. destruct (Forall2_In_r _ _ _ _ F Hv) as (l & _ & n & _ & ->).
      unfold ids_of. apply asc_filter. apply asc_firstn. }
    destruct (intersect_exact o _ FA) as (ids & -> & A & B). cbn [finish].
    assert (NE: nonempty [] = false) by reflexivity.
    assert (Nv: forall v x, In x v -> nonempty v = true) by (intros [|y v] x Hx; [contradiction|reflexivity]).
    assert (Sx: forall x, In x ids -> exists e, fst e = x /\ sees q e).
    { intros x Hx. apply B in Hx as [Hne Hx]. rewrite Forall_forall in Hx.
      destruct (filter nonempty vs) as [|v0 L] eqn:EL; [congruence|].
      assert (Hv0: In v0 (filter nonempty vs)) by (rewrite EL; now left). apply filter_In in Hv0 as [Hv0 _].
      destruct (Forall2_In_r _ _ _ _ F Hv0) as (l0 & Hl0 & n & Ln & E0).
      assert (X0: In x v0) by (apply Hx; now left). rewrite E0 in X0. apply ids_of_In in X0 as (e & He & <- & Hh).
      apply firstn_In in He. exists e. split; [reflexivity|]. split; [assumption|]. split; [eauto|]. intros l Hl Hk.
      destruct (Forall2_In_l _ _ _ _ F Hl) as (v & Hv & m & Lm & Em).
      assert (Hkm: known (firstn m R) l = true) by now apply (known_mono lo m).
      apply known_ids in Hkm. rewrite <- Em in Hkm.
      assert (Hvf: In v (v0 :: L)). { rewrite <- EL. apply filter_In. split; [assumption|]. destruct v; [congruence|reflexivity]. }
      specialize (Hx _ Hvf). rewrite Em in Hx. apply ids_of_In in Hx as (e' & He' & Ee & Hh'). apply firstn_In in He'.
      assert (e' = e) as <-; [|assumption]. apply (reg_unique R); try assumption. now apply asc_NoDup. }
    assert (Mx: forall e, must_see q e -> In (fst e) ids).
    { intros e (H1 & (l0 & Hl0 & Hh0) & H2). apply B.
      assert (In2: forall l n, (lo <= n)%nat -> has (snd e) l = true -> In (fst e) (ids_of (firstn n R) l)).
      { intros l n Ln Hh. apply ids_of_In. exists e. split; [now apply (firstn_le lo n)|]. auto. }
      split.
      - destruct (Forall2_In_l _ _ _ _ F Hl0) as (v & Hv & n & Ln & Ev). pose proof (In2 l0 n Ln Hh0) as X. rewrite <- Ev in X.
        intros EL. assert (Y: In v (filter nonempty vs)) by (apply filter_In; split; [assumption|now apply (Nv v (fst e))]).
        rewrite EL in Y. contradiction.
      - apply Forall_forall. intros v Hv. apply filter_In in Hv as [Hv Hn]. destruct (Forall2_In_r _ _ _ _ F Hv) as (l & Hl & n & Ln & Ev).
        rewrite Ev. apply In2; [assumption|]. apply H2; [assumption|]. apply (known_all n). apply known_ids. rewrite <- Ev. intros ->. discriminate. }
    assert (X: exists E, map fst E = ids /\ Forall (sees q) E).
    { clear -Sx. induction ids as [|x ids IH]; [exists []; split; [reflexivity|constructor]|].
      destruct IH as (E & E1 & E2); [intros y Hy; apply Sx; now right|]. destruct (Sx x (or_introl eq_refl)) as (e & <- & He).
      exists (e :: E). split; [cbn [map]; congruence|now constructor]. }
    destruct X as (E & <- & FE). exists E. split; [reflexivity|]. split; [assumption|]. split; [assumption|].
    intros e He. pose proof (Mx e He) as X. apply in_map_iff in X as (e' & Ee & He'). rewrite Forall_forall in FE.
    destruct (FE e' He') as (HR & _). destruct He as (H1 & _). apply firstn_In in H1.
    assert (e' = e) as <-; [|assumption]. apply (reg_unique R); try assumption. now apply asc_NoDup.
  Qed.

  (* one metadata get *)
  Lemma meta_get q e s n : sees q e -> some_ix s n -> 
    (kv_get s (ikey ix (fst e)) = Some (encode_labels (snd e) false) \/ (kv_get s (ikey ix (fst e)) = None /\ ~ In e (firstn lo R))) /\
    decode_labels (encode_labels (snd e) false) false = Ok (sort_labels (snd e)).
  Proof.
    intros (H1 & (l & Hl & Hh) & _) (Ln & _ & _ & HI). unfold ids_ok in Hi. unfold sets_ok in Hs. rewrite Forall_forall in Hi, Hs.
    split; [|apply (decode_stored e l (Hs _ H1)); assumption].
    rewrite (HI _ (Hi _ H1)). destruct (lookup_id (firstn n R) (fst e)) as [e'|] eqn:E.
    - left. apply find_some in E as [E1 E2]. apply in_rev in E1. apply firstn_In in E1.
      assert (e' = e) as -> by (apply (reg_unique R); [now apply asc_NoDup|assumption|assumption|lia]). reflexivity.
    - right. split; [reflexivity|]. intros Hlo. apply (firstn_le lo n) in Hlo; [|assumption].
      rewrite (lookup_id_In (firstn n R) e) in E; [discriminate| |assumption]. apply asc_NoDup, asc_firstn.
  Qed.

  Lemma metadata_may o q r : Forall lab_ok q -> may GI (series_metadata_contains_labels ix o q) r ->
    exists E, r = Ok (map meta E) /\ ascending (map fst E) /\ Forall (sees q) E /\ (forall e, must_see q e -> In e E).
  Proof.
    intros Hq M.
    assert (K: exists E r', may GI (series_id_contains_labels ix o q) (Ok (map fst E)) /\ ascending (map fst E) /\ Forall (sees q) E /\
      (forall e, must_see q e -> In e E) /\
      match ix with
      | SledIndexer => may GI (forM (fun id =>
          let? v := call (KGet (encode_time_series_id id)) in
          Ret match v with
              | Some s => rmap (fun l => Some (id, l)) (decode_labels s false)
              | None => Ok None
              end) (map fst E)) r' /\ r = rmap somes r'
      | TiKvIndexer i => exists m, may GI (tikv_metas i (map fst E)) m /\ r = Ok m
      end).
    { destruct ix as [|i] eqn:Eix; cbn [series_metadata_contains_labels series_id_contains_labels] in *; [unfold sled_metadata in M|unfold tikv_metadata in M].
      - pose proof (fun r => found_ids o q r Hq) as FI. rewrite Eix in FI. cbn [series_id_contains_labels] in FI.
        apply may_qbind in M as [(a & M1 & M2)|[(e & M1 & ->)|[M1 ->]]]; destruct (FI _ M1) as (E & Er & A1 & A2 & A3); try discriminate.
        injection Er as ->. apply may_qbind in M2 as [(a & M2 & M3)|[(e & M2 & ->)|[M2 ->]]]; cbn [may] in *.
        + exists E, (Ok a). auto 6.
        + exists E, (Err e). auto 6.
        + exists E, Panic. auto 6.
      - pose proof (fun r => found_ids o q r Hq) as FI. rewrite Eix in FI. cbn [series_id_contains_labels] in FI.
        apply may_qbind in M as [(a & M1 & M2)|[(e & M1 & ->)|[M1 ->]]]; destruct (FI _ M1) as (E & Er & A1 & A2 & A3); try discriminate.
        injection Er as ->. apply may_bind in M2 as (m & M2 & M3). cbn [may] in M3.
        exists E, (Ok []). split; [assumption|]. split; [assumption|]. split; [assumption|]. split; [assumption|]. eauto. }
    destruct K as (E & r' & _ & A1 & A2 & A3 & K).
    (* each registration found is reported or left out *)
    assert (X: exists os, Forall2 (fun e o => o = Some (meta e) \/ (o = None /\ ~ In e (firstn lo R))) E os /\ r = Ok (somes os)).
    { destruct ix as [|i] eqn:Eix.
      - destruct K as [K ->].
        set (f := fun id => let? v := call (KGet (encode_time_series_id id)) in
          Ret match v with
              | Some s => rmap (fun l => Some (id, l)) (decode_labels s false)
              | None => Ok None
              end) in K.
        assert (Q: exists vs, r' = Ok vs /\ Forall2 (fun id o => exists e, In e E /\ fst e = id /\
                     (o = Some (meta e) \/ (o = None /\ ~ In e (firstn lo R)))) (map fst E) vs).
        { apply (may_forM _ _ _ _ _) with (2 := K). intros id b Hid Mb. apply in_map_iff in Hid as (e & <- & He).
          unfold f in Mb. pose proof A2 as A2'. rewrite Forall_forall in A2'. specialize (A2' e He).
          apply may_qbind in Mb as [(a & M1 & M2)|[(x & M1 & _)|[M1 _]]]; cbn [may call] in *.
          2:{ destruct M1 as (y & (s & n & _ & Ex) & Z1). congruence. }
          2:{ destruct M1 as (y & (s & n & _ & Ex) & Z1). congruence. }
          destruct M1 as (x & (s & n & Sn & Ex) & Z1). subst x. injection Z1 as ->.
          destruct (meta_get q e s n A2' Sn) as [G D]. rewrite Eix in G. unfold ikey, pfx in G. cbn [app] in G.
          destruct G as [G|[G Nl]]; rewrite G in M2.
          - rewrite D in M2. exists (Some (meta e)). split; [exact M2|]. exists e. auto.
          - exists None. split; [exact M2|]. exists e. auto. }
        destruct Q as (vs & -> & Q). exists vs. split; [|reflexivity].
        assert (Nd: NoDup (map fst E)) by now apply asc_NoDup.
        assert (U: forall e e', In e E -> In e' E -> fst e' = fst e -> e' = e).
        { intros e e' H1 H2 H3. apply (reg_unique E); assumption. }
        assert (Gn: forall E' vs', (forall e, In e E' -> In e E) ->
          Forall2 (fun id o => exists e, In e E /\ fst e = id /\ (o = Some (meta e) \/ (o = None /\ ~ In e (firstn lo R)))) (map fst E') vs' ->
          Forall2 (fun e o => o = Some (meta e) \/ (o = None /\ ~ In e (firstn lo R))) E' vs').
        { clear -U. induction E' as [|e E' IH]; intros vs' In1 Q; inversion Q as [|a b l m P F]; subst; constructor.
          - destruct P as (e' & He' & Ee & P). assert (e' = e) as -> by (apply U; [apply In1; now left|assumption|assumption]). assumption.
          - apply IH; [intros e' He'; apply In1; now right|assumption]. }
        apply Gn; auto.
      - destruct K as (m & K & ->). clear A1 A3 M. revert m K. induction E as [|e E IH]; intros m K; cbn [map tikv_metas] in K.
        + exists []. split; [constructor|]. cbn [may] in K. now subst.
        + cbn [bind call may] in K. destruct K as (x & (s & n & Sn & ->) & K). apply may_bind in K as (rest & K1 & K2). cbn [may] in K2.
          inversion A2 as [|a b Pe Pr]; subst. destruct (IH Pr _ K1) as (os & F & Er). injection Er as ->.
          destruct (meta_get q e s n Pe Sn) as [G D]. rewrite Eix in G. unfold ikey, pfx in G.
          destruct G as [G|[G Nl]]; rewrite G.
          * rewrite D. exists (Some (meta e) :: os). split; [constructor; auto|reflexivity].
          * exists (None :: os). split; [constructor; auto|reflexivity]. }
    destruct X as (os & F & ->). clear K r'.
    assert (Y: exists E', somes os = map meta E' /\ ascending (map fst E') /\ (forall e, In e E' -> In e E) /\
      (forall e, In e E -> In e (firstn lo R) -> In e E')).
    { clear A2 A3 M. induction F as [|e ov E os P F IH].
      - exists []. split; [reflexivity|]. split; [constructor|]. split; auto.
      - cbn [map] in A1. apply asc_inv in A1 as [A1 A1']. destruct (IH A1) as (E' & E1 & E2 & E3 & E4). destruct P as [->|[-> Nl]].
        + exists (e :: E'). cbn [somes flat_map app map]. unfold somes in E1. rewrite E1. split; [reflexivity|]. split; [|split].
          * constructor; [assumption|]. rewrite Forall_forall in *. intros x Hx. apply A1'. apply in_map_iff in Hx as (y & <- & Hy). apply in_map. now apply E3.
          * intros x [->|Hx]; [now left|right; now apply E3].
          * intros x [->|Hx] Hlo; [now left|right; now apply E4].
        + exists E'. cbn [somes flat_map app map]. split; [exact E1|]. split; [assumption|]. split.
          * intros x Hx. right. now apply E3.
          * intros x [->|Hx] Hlo; [contradiction|now apply E4]. }
    destruct Y as (E' & -> & E2 & E3 & E4). exists E'. split; [reflexivity|]. split; [assumption|]. split.
    - rewrite Forall_forall in *. intros e He. apply A2. now apply E3.
    - intros e He. apply E4; [now apply A3|]. apply He.
  Qed.
End Index.

(** ** a chunk *)
Lemma prefix_refl {A} (l : list A) : prefix l l.
Proof. exists []. now rewrite app_nil_r. Qed.
Lemma prefix_trans {A} (a b c : list A) : prefix a b -> prefix b c -> prefix a c.
Proof. intros (x & ->) (y & ->). exists (x ++ y). now rewrite app_assoc. Qed.
Lemma grown_refl A : grown A A.
Proof. intros i ls pts H. exists pts. split; [assumption|apply prefix_refl]. Qed.
Lemma grown_trans A B C : grown A B -> grown B C -> grown A C.
Proof.
  intros H1 H2 i ls pts H. destruct (H1 _ _ _ H) as (p1 & E1 & P1). destruct (H2 _ _ _ E1) as (p2 & E2 & P2).
  exists p2. split; [assumption|]. eapply prefix_trans; eassumption.
Qed.
Lemma grown_length A B : grown A B -> (length A <= length B)%nat.
Proof.
  intros H. destruct (length A) as [|n] eqn:E; [lia|]. destruct (nth_error A n) as [[ls pts]|] eqn:F.
  - destruct (H _ _ _ F) as (p & G & _). apply Nat.le_succ_l. apply nth_error_Some. congruence.
  - apply nth_error_None in F. lia.
Qed.
Lemma grown_regs A B : grown A B -> regs A = firstn (length A) (regs B).
Proof.
  unfold regs. generalize 1. revert B. induction A as [|[ls pts] A IH]; intros B n H; [reflexivity|].
  destruct B as [|[ls' pts'] B]; [destruct (H 0%nat _ _ eq_refl) as (? & ? & _); discriminate|].
  destruct (H 0%nat _ _ eq_refl) as (p & E & _). injection E as -> ->.
  cbn [numbered map length firstn fst snd]. f_equal. apply IH. intros i l q Hi. exact (H (S i) l q Hi).
Qed.
Lemma pts_of_num A id ls pts : In (id, (ls, pts)) (numbered 1 A) -> pts_of A id = pts.
Proof.
  intros H. apply numbered_In in H as (i & H1 & H2). cbn [fst snd] in *. unfold pts_of. replace (1 <=? id) with true by lia.
  replace (Z.to_nat (id - 1)) with i by lia. now rewrite H1.
Qed.
Lemma grown_pts A B id : grown A B -> prefix (pts_of A id) (pts_of B id).
Proof.
  intros H. unfold pts_of. destruct (1 <=? id); [|apply prefix_refl]. destruct (nth_error A (Z.to_nat (id - 1))) as [[ls pts]|] eqn:E.
  - destruct (H _ _ _ E) as (p & -> & P). assumption.
  - exists (match nth_error B (Z.to_nat (id - 1)) with Some e => snd e | None => [] end). reflexivity.
Qed.
Lemma known_regs A l : known (regs A) l = occurs A l.
Proof.
  unfold known, occurs, regs. generalize 1. induction A as [|a A IH]; intros n; [reflexivity|].
  cbn [numbered map existsb snd fst]. f_equal. apply IH.
Qed.
Lemma regs_num A id ls : In (id, ls) (regs A) <-> exists pts, In (id, (ls, pts)) (numbered 1 A).
Proof.
  unfold regs. rewrite in_map_iff. split.
  - intros ([i [l p]] & E & H). cbn [fst snd] in E. injection E as -> ->. eauto.
  - intros (pts & H). exists (id, (ls, pts)). auto.
Qed.
Lemma regs_sets_ok A : Forall (fun e => set_ok (fst e)) A -> sets_ok (regs A).
Proof.
  intros F. unfold sets_ok. rewrite Forall_forall. intros x Hx. apply regs_In in Hx as (i & pts & H1 & _).
  rewrite Forall_forall in F. apply nth_error_In in H1. exact (F _ H1).
Qed.

Section Chunk.
  Variables (ch : chunk) (bs : bsearch) (A0 A1 : content).
  Hypothesis (HG : grown A0 A1) (HL : Z.of_nat (length A1) < 2 ^ 64) (HW : Forall (fun e => set_ok (fst e)) A1).

  (* a read of the point store sees some of the points, at least the first ones *)
  Definition some_st (s : kv) : Prop := exists f, holds_series (c_storage ch) s f /\
    forall id, prefix (pts_of A0 id) (f id) /\ prefix (f id) (pts_of A1 id).
  Definition GS X (c : kcmd X) : X -> Prop :=
    match c in kcmd X return X -> Prop with
    | KGet k => fun x => exists s, some_st s /\ x = Ok (kv_get s k)
    | KSet _ _ => fun _ => False
    end.
  Definition GC X (c : ccmd X) : X -> Prop :=
    match c in ccmd X return X -> Prop with
    | CSt c => GS _ c
    | CIx c => GI (c_indexer ch) (regs A1) (length A0) _ c
    | CReadPass => fun x => x = false
    | _ => fun _ => False
    end.

  Lemma read_may id s e r : id_ok id -> may GS (read_time_series (c_storage ch) bs id s e) r ->
    exists pts, prefix (pts_of A0 id) pts /\ prefix pts (pts_of A1 id) /\ r = reader bs s e pts.
  Proof.
    intros Hid M.
    assert (X: exists st, some_st st /\ r = fst (krun (read_time_series (c_storage ch) bs id s e) st)).
    { destruct (c_storage ch) eqn:Ec; cbn [read_time_series] in *; unfold sled_read, tikv_read in *; cbn [qbind bind call may] in M;
        destruct M as (x & (st & Hst & ->) & M); exists st; (split; [assumption|]); cbn [krun qbind bind call];
        destruct (kv_get st _) as [b|]; cbn [may] in M; try exact M;
        destruct (decode _) as [l| |]; cbn [krun may rbind] in *; exact M. }
    destruct X as (st & (f & Hf & Hp) & ->). exists (f id). destruct (Hp id) as [P1 P2]. split; [assumption|]. split; [assumption|].
    now rewrite (read_series_reader _ bs st f).
  Qed.

  Definition looked (e : Z * list label) (m : Z * (list label * list tp)) : Prop :=
    fst m = fst e /\ fst (snd m) = snd e /\ prefix (pts_of A0 (fst e)) (snd (snd m)) /\ prefix (snd (snd m)) (pts_of A1 (fst e)).

  Lemma collect_may s e E r : Forall (fun x => id_ok (fst x)) E ->
    may GC (forM (fun c =>
        let? data := lift (@CSt) (read_time_series (c_storage ch) bs (fst c) s e) in
        Ret (Ok (match data with
                 | [] => None
                 | _ => Some (mkSeries (fst c) (snd c) data)
                 end))) (map meta E)) r ->
    exists M, Forall2 looked E M /\ rmap somes r = collect (reader bs s e) M.
  Proof.
    intros H. revert r. induction H as [|x E Hx H IH]; intros r M.
    - exists []. split; [constructor|]. cbn [map forM may] in M. now subst.
    - cbn [map forM] in M. destruct x as [id ls]. unfold meta at 1 2 3 in M. cbn [fst snd] in M, Hx.
      assert (R1: forall r1, may GC (let? data := lift (@CSt) (read_time_series (c_storage ch) bs id s e) in
           Ret (Ok (match data with [] => None | _ => Some (mkSeries id (sort_labels ls) data) end))) r1 ->
        exists pts, prefix (pts_of A0 id) pts /\ prefix pts (pts_of A1 id) /\
          r1 = rmap (fun data => match data with [] => None | _ => Some (mkSeries id (sort_labels ls) data) end) (reader bs s e pts)).
      { intros r1 M1. apply may_qbind in M1 as [(d & M1 & M2)|[(er & M1 & ->)|[M1 ->]]]; apply may_lift in M1;
          apply (read_may id s e) in M1 as (pts & P1 & P2 & Er); try assumption; exists pts; (split; [assumption|]); (split; [assumption|]);
          rewrite <- Er; [exact M2|reflexivity|reflexivity]. }
      assert (R2: exists Mt, Forall2 looked E Mt).
      { exists (map (fun x => (fst x, (snd x, pts_of A1 (fst x)))) E). clear -HG. induction E as [|x E IH]; cbn [map]; constructor; [|assumption].
        split; [reflexivity|]. split; [reflexivity|]. split; [apply grown_pts; assumption|apply prefix_refl]. }
      apply may_qbind in M as [(b & M1 & M2)|[(er & M1 & ->)|[M1 ->]]]; destruct (R1 _ M1) as (pts & P1 & P2 & E1).
      + destruct (reader bs s e pts) as [d|er|] eqn:Er; cbn [rmap] in E1; try discriminate. injection E1 as ->.
        apply may_qbind in M2 as [(l & M2 & M3)|[(er & M2 & ->)|[M2 ->]]]; destruct (IH _ M2) as (Mt & F & Ec); cbn [rmap] in Ec.
        * exists ((id, (ls, pts)) :: Mt). split; [constructor; [repeat split; assumption|assumption]|]. cbn [may] in M3. subst r.
          cbn [collect rmap]. rewrite Er, <- Ec. cbn [rbind]. destruct d; reflexivity.
        * exists ((id, (ls, pts)) :: Mt). split; [constructor; [repeat split; assumption|assumption]|].
          cbn [collect rmap]. rewrite Er, <- Ec. reflexivity.
        * exists ((id, (ls, pts)) :: Mt). split; [constructor; [repeat split; assumption|assumption]|].
          cbn [collect rmap]. rewrite Er, <- Ec. reflexivity.
      + destruct (reader bs s e pts) as [d|er'|] eqn:Er; cbn [rmap] in E1; try discriminate. injection E1 as ->.
        destruct R2 as (Mt & F). exists ((id, (ls, pts)) :: Mt). split; [constructor; [repeat split; assumption|assumption]|].
        cbn [collect rmap]. rewrite Er. reflexivity.
      + destruct (reader bs s e pts) as [d|er'|] eqn:Er; cbn [rmap] in E1; try discriminate.
        destruct R2 as (Mt & F). exists ((id, (ls, pts)) :: Mt). split; [constructor; [repeat split; assumption|assumption]|].
        cbn [collect rmap]. rewrite Er. reflexivity.
  Qed.

  Theorem query_may o q s e r : Forall lab_ok q -> may GC (chunk_query ch bs o q s e) r ->
    exists M, seen A0 A1 q M /\ r = answer_from ch (reader bs s e) M s e.
  Proof.
    intros Hq Mq. unfold chunk_query in Mq. apply may_bind in Mq as (po & M1 & Mq). cbn [call may] in M1.
    destruct M1 as (x & Hx & ->). cbn [GC] in Hx. subst x. cbn beta iota in Mq.
    unfold answer_from. unfold is_with_range, is_duration_overlap in Mq. rewrite negb_involutive in Mq.
    assert (Ki: ids_ok (regs A1)) by now apply regs_ids_ok.
    assert (Ks: sets_ok (regs A1)) by now apply regs_sets_ok.
    pose proof (regs_asc A1) as Ka.
    assert (SE: forall E M, ascending (map fst E) -> Forall (sees (regs A1) (length A0) q) E -> (forall x, must_see (regs A1) (length A0) q x -> In x E) ->
      Forall2 looked E M -> seen A0 A1 q M).
    { intros E M EA ES EM F.
      assert (Mf: map fst M = map fst E).
      { clear -F. induction F as [|x m E M (H & _) F IH]; [reflexivity|]. cbn [map]. congruence. }
      assert (ME: forall id ls pts, In (id, (ls, pts)) M -> sees (regs A1) (length A0) q (id, ls) /\ prefix (pts_of A0 id) pts /\ prefix pts (pts_of A1 id)).
      { intros id ls pts HM. destruct (Forall2_In_r _ _ _ _ F HM) as ([id' ls'] & HE & L1 & L2 & L3 & L4). cbn [fst snd] in *. subst id' ls'.
        rewrite Forall_forall in ES. split; [now apply ES|]. auto. }
      rewrite Forall_forall in ES. constructor.
      - now rewrite Mf.
      - intros id ls pts HM. destruct (ME _ _ _ HM) as ((H1 & _) & _ & P). apply regs_num in H1 as (p1 & H1). exists p1. split; [assumption|].
        now rewrite (pts_of_num _ _ _ _ H1) in P.
      - intros id ls pts pts0 HM H0. destruct (ME _ _ _ HM) as (_ & P & _). now rewrite (pts_of_num _ _ _ _ H0) in P.
      - intros id ls pts HM. destruct (ME _ _ _ HM) as ((_ & H & _) & _). exact H.
      - intros id ls pts l HM Hl Ho. destruct (ME _ _ _ HM) as ((_ & _ & H) & _). apply H; [assumption|].
        rewrite <- grown_regs by assumption. now rewrite known_regs.
      - intros id ls pts0 H0 Hm.
        assert (X: In (id, ls) E).
        { apply EM. unfold must_see. rewrite <- grown_regs by assumption. split; [apply regs_num; eauto|].
          unfold matches in Hm. apply andb_true_iff in Hm as [Hm1 Hm2]. rewrite forallb_forall in Hm2. cbn [snd].
          assert (All: forall l, In l q -> occurs A1 l = true -> has ls l = true).
          { intros l Hl Ho. specialize (Hm2 l Hl). now rewrite Ho in Hm2. }
          split.
          - apply existsb_exists in Hm1 as (l & Hl & Ho). exists l. split; [assumption|]. now apply All.
          - intros l Hl Hk. rewrite known_regs in Hk. now apply All. }
        destruct (Forall2_In_l _ _ _ _ F X) as ([id' [ls' pts]] & HM & L1 & L2 & _). cbn [fst snd] in *. subst. eauto. }
    destruct ((e <? c_start ch) || (c_end ch <? s)).
    { (* the series are not looked at; any list will do *)
      cbn [may] in Mq. subst r.
      set (f := fun x : Z * (list label * list tp) => existsb (fun l => has (fst (snd x)) l) q &&
         forallb (fun l => negb (occurs A0 l) || has (fst (snd x)) l) q).
      exists (filter f (numbered 1 A1)). split; [|reflexivity].
      assert (K: forall id ls pts, In (id, (ls, pts)) (filter f (numbered 1 A1)) <-> In (id, (ls, pts)) (numbered 1 A1) /\
        (exists l, In l q /\ has ls l = true) /\ (forall l, In l q -> occurs A0 l = true -> has ls l = true)).
      { intros id ls pts. rewrite filter_In. unfold f. cbn [fst snd]. rewrite andb_true_iff, existsb_exists, forallb_forall. split.
        - intros (H1 & H2 & H3). split; [assumption|]. split; [assumption|]. intros l Hl Ho. specialize (H3 l Hl). now rewrite Ho in H3.
        - intros (H1 & H2 & H3). split; [assumption|]. split; [assumption|]. intros l Hl. destruct (occurs A0 l) eqn:Q; [|reflexivity]. cbn. now apply H3. }
      constructor.
      - unfold regs in Ka. rewrite map_map in Ka. cbn [fst] in Ka. clear -Ka. revert Ka. generalize (numbered 1 A1). intros L. induction L as [|x L IH]; intros H; [constructor|].
        cbn [map] in H. apply asc_inv in H as [H1 H2]. cbn [filter]. destruct (f x); [|now apply IH]. cbn [map]. constructor; [now apply IH|].
        rewrite Forall_forall in *. intros y Hy. apply H2. apply in_map_iff in Hy as (z & <- & Hz). apply filter_In in Hz as [Hz _]. apply (in_map fst) in Hz. exact Hz.
      - intros id ls pts H. apply K in H as (H & _). exists pts. split; [assumption|apply prefix_refl].
      - intros id ls pts pts0 H H0. apply K in H as (H & _). pose proof (grown_pts A0 A1 id HG) as P.
        now rewrite (pts_of_num _ _ _ _ H), (pts_of_num _ _ _ _ H0) in P.
      - intros id ls pts H. apply K in H as (_ & H & _). exact H.
      - intros id ls pts l H Hl Ho. apply K in H as (_ & _ & H). now apply H.
      - intros id ls pts0 H0 Hm. apply numbered_In in H0 as (i & N0 & Eid). cbn [fst snd] in *. destruct (HG _ _ _ N0) as (p1 & N1 & _).
        exists p1. apply K. unfold matches in Hm. apply andb_true_iff in Hm as [Hm1 Hm2]. rewrite forallb_forall in Hm2.
        assert (All: forall l, In l q -> occurs A1 l = true -> has ls l = true).
        { intros l Hl Ho. specialize (Hm2 l Hl). now rewrite Ho in Hm2. }
        split; [rewrite Eid; now apply numbered_nth|]. split.
        + apply existsb_exists in Hm1 as (l & Hl & Ho). exists l. split; [assumption|]. now apply All.
        + intros l Hl Ho. apply All; [assumption|]. unfold occurs in *. apply existsb_exists in Ho as ([l0 p0] & Hin & Hh). apply existsb_exists.
          apply In_nth_error in Hin as (j & Hj). destruct (HG _ _ _ Hj) as (p2 & N2 & _). exists (l0, p2). split; [eapply nth_error_In; exact N2|assumption]. }
    assert (MI: forall r', may GC (lift (@CIx) (series_metadata_contains_labels (c_indexer ch) o q)) r' ->
      exists E, r' = Ok (map meta E) /\ ascending (map fst E) /\ Forall (sees (regs A1) (length A0) q) E /\
        (forall e, must_see (regs A1) (length A0) q e -> In e E)).
    { intros r' Mi. apply may_lift in Mi. apply (metadata_may (c_indexer ch) (regs A1) (length A0) Ki Ks Ka o q r' Hq). exact Mi. }
    apply may_qbind in Mq as [(cs & M1 & M2)|[(er & M1 & ->)|[M1 ->]]]; destruct (MI _ M1) as (E & Er & EA & ES & EM); try discriminate.
    injection Er as ->.
    assert (FE: Forall (fun x => id_ok (fst x)) E).
    { rewrite Forall_forall in *. intros x Hx. destruct (ES x Hx) as (HR & _). unfold ids_ok in Ki. rewrite Forall_forall in Ki. now apply Ki. }
    apply may_qbind in M2 as [(l & M2 & M3)|[(er & M2 & ->)|[M2 ->]]]; destruct (collect_may s e E _ FE M2) as (M & F & Ec);
      exists M; (split; [now apply (SE E)|]); cbn [rmap] in Ec; rewrite <- Ec; [exact M3|reflexivity|reflexivity].
  Qed.
End Chunk.
