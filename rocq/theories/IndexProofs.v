(* Proofs about the label index: the store represents a list of registrations. *)
From Coq Require Import ZifyBool ZifyNat Permutation Sorted String.
From Verif Require Import Rust Prog Bstream BitSpec BitsProofs GorillaBits StringProofs Compactor Labels Indexer IndexSpec
  LabelProofs IntersectProofs StorageProofs.
Ltac Zify.zify_post_hook ::= Z.div_mod_to_equations.
Local Notation length := List.length.

(** ** running store programs *)
Lemma krun_bind {A B} (p : prog kcmd A) (f : A -> prog kcmd B) s :
  krun (bind p f) s = let '(a, s') := krun p s in krun (f a) s'.
Proof.
  revert s. induction p as [a|X c k IH]; intros s; [reflexivity|].
  destruct c as [key|key v]; cbn [bind krun]; apply IH.
Qed.
Lemma krun_qbind {A B} (p : prog kcmd (res A)) (f : A -> prog kcmd (res B)) s a s' :
  krun p s = (Ok a, s') -> krun (qbind p f) s = krun (f a) s'.
Proof. intros H. unfold qbind. rewrite krun_bind, H. reflexivity. Qed.
Lemma krun_qbind_err {A B} (p : prog kcmd (res A)) (f : A -> prog kcmd (res B)) s e s' :
  krun p s = (Err e, s') -> krun (qbind p f) s = (Err e, s').
Proof. intros H. unfold qbind. rewrite krun_bind, H. reflexivity. Qed.
Lemma krun_get s k : krun (call (KGet k)) s = (Ok (kv_get s k), s).
Proof. reflexivity. Qed.
Lemma krun_set s k v : krun (call (KSet k v)) s = (Ok tt, kv_set s k v).
Proof. reflexivity. Qed.

Lemma krun_forM_read {A B} (f : A -> prog kcmd (res B)) (g : A -> B) l s :
  (forall x, In x l -> krun (f x) s = (Ok (g x), s)) -> krun (forM f l) s = (Ok (map g l), s).
Proof.
  induction l as [|x l IH]; intros H; [reflexivity|]. cbn [forM].
  rewrite (krun_qbind _ _ s (g x) s) by (apply H; now left).
  rewrite (krun_qbind _ _ s (map g l) s) by (apply IH; intros y Hy; apply H; now right).
  reflexivity.
Qed.

(** ** representation *)
Definition pfx (ix : indexer) : bytes := match ix with SledIndexer => [] | TiKvIndexer i => i end.
Definition lkey ix ls := pfx ix ++ encode_labels ls true.
Definition rkey ix l := pfx ix ++ encode_label l.
Definition ikey ix id := pfx ix ++ encode_time_series_id id.
Definition enc_id (ix : indexer) (id : Z) : bytes :=
  match ix with SledIndexer => to_dec id | TiKvIndexer _ => be_bytes 8 id end.
Definition enc_ids (ix : indexer) (ids : list Z) : bytes :=
  match ix with
  | SledIndexer => join comma (map to_dec ids)
  | TiKvIndexer _ => concat (map (be_bytes 8) ids)
  end.

Definition ids_of (R : reg) (l : label) : list Z := map fst (filter (fun e => has (snd e) l) R).
Definition lookup_set (R : reg) (ls : list label) := find (fun e => same_setb (snd e) ls) (rev R).
Definition lookup_id (R : reg) (id : Z) := find (fun e => fst e =? id) (rev R).

Definition repL ix s R := forall ls, set_ok ls ->
  kv_get s (lkey ix ls) = option_map (fun e => enc_id ix (fst e)) (lookup_set R ls).
Definition repR ix s R := forall l, lab_ok l ->
  kv_get s (rkey ix l) = match ids_of R l with [] => None | ids => Some (enc_ids ix ids) end.
Definition repI ix s R := forall id, id_ok id ->
  kv_get s (ikey ix id) = option_map (fun e => encode_labels (snd e) false) (lookup_id R id).
Definition rep ix s R := repL ix s R /\ repR ix s R /\ repI ix s R.

Lemma rep_empty ix : rep ix [] [].
Proof. split; [|split]; intros ? ?; reflexivity. Qed.

(** ** key disjointness *)
Lemma lkey_inj ix a b : set_ok a -> set_ok b -> lkey ix a = lkey ix b -> Permutation a b.
Proof.
  intros (A & _) (B & _) E. unfold lkey in E. apply app_inv_head in E.
  apply sort_eq_perm. now apply encode_labels_inj.
Qed.
Lemma lkey_perm ix a b : keys_distinct a -> Permutation a b -> lkey ix a = lkey ix b.
Proof. intros H P. unfold lkey. rewrite !encode_labels_join. now rewrite (sort_perm_eq a b). Qed.
Lemma rkey_inj ix a b : lab_ok a -> lab_ok b -> rkey ix a = rkey ix b -> a = b.
Proof. intros A B E. apply app_inv_head in E. now apply encode_label_inj. Qed.
Lemma ikey_inj ix a b : id_ok a -> id_ok b -> ikey ix a = ikey ix b -> a = b.
Proof. intros A B E. apply app_inv_head in E. now apply key_I_inj. Qed.
Lemma lkey_rkey ix ls l : set_ok ls -> lab_ok l -> lkey ix ls <> rkey ix l.
Proof. intros A B E. apply app_inv_head in E. revert E. now apply key_L_LR. Qed.
Lemma ikey_lkey ix id ls : ikey ix id <> lkey ix ls.
Proof. intros E. apply app_inv_head in E. revert E. apply key_I_L. Qed.
Lemma ikey_rkey ix id l : ikey ix id <> rkey ix l.
Proof. intros E. apply app_inv_head in E. revert E. apply key_I_LR. Qed.

(** ** decoding ids *)
Lemma id_dec_no_comma id : 0 <= id -> ~ In comma (to_dec id).
Proof.
  intros H Hi. pose proof (to_dec_digits id H) as [_ F]. rewrite Forall_forall in F.
  specialize (F _ Hi). unfold comma in F. lia.
Qed.
Lemma parse_id_dec id : id_ok id -> parse_id (to_dec id) = Ok id.
Proof. intros H. unfold parse_id. now rewrite parse_dec. Qed.
Lemma id_of_be id : id_ok id -> id_of_bytes (be_bytes 8 id) = Ok id.
Proof.
  intros H. unfold id_of_bytes. rewrite length_be_bytes. cbn [Nat.eqb].
  rewrite from_be_be_bytes. change (8 * Z.of_nat 8) with 64. rewrite Z.mod_small by exact H. reflexivity.
Qed.
Lemma sled_ids_decode ids : ids <> [] -> Forall id_ok ids ->
  mapM parse_id (split_on comma (enc_ids SledIndexer ids)) = Ok ids.
Proof.
  intros Hne H. cbn [enc_ids]. rewrite split_on_join.
  - apply mapM_ok. clear Hne. induction H; cbn [map]; constructor; [now apply parse_id_dec|assumption].
  - destruct ids; cbn; congruence.
  - clear Hne. induction H; cbn [map]; constructor; [apply id_dec_no_comma; unfold id_ok in *; lia|assumption].
Qed.
Lemma tikv_ids_decode i ids : Forall id_ok ids ->
  mapM id_of_bytes (chunks 8 (enc_ids (TiKvIndexer i) ids)) = Ok ids.
Proof.
  intros H. cbn [enc_ids]. rewrite chunks_concat; [|lia|].
  - apply mapM_ok. induction H; cbn [map]; constructor; [now apply id_of_be|assumption].
  - clear H. induction ids; cbn [map]; constructor; [apply length_be_bytes|assumption].
Qed.

(* appending an id to an encoded list *)
Definition add_id (ix : indexer) (v : option bytes) (id : Z) : bytes :=
  match ix with
  | SledIndexer => match v with None => to_dec id | Some s => s ++ [comma] ++ to_dec id end
  | TiKvIndexer _ => match v with Some b => b | None => [] end ++ be_bytes 8 id
  end.
Lemma join_snoc c l x : l <> [] -> join c (l ++ [x]) = join c l ++ c :: x.
Proof.
  intros Hne. induction l as [|y l IH]; [congruence|]. destruct l as [|z l].
  - reflexivity.
  - cbn [app]. rewrite !join_cons. change (z :: l ++ [x]) with ((z :: l) ++ [x]).
    rewrite IH by congruence. rewrite <- app_assoc. reflexivity.
Qed.
Lemma add_id_enc ix ids id :
  add_id ix (match ids with [] => None | ids => Some (enc_ids ix ids) end) id = enc_ids ix (ids ++ [id]).
Proof.
  destruct ix; cbn [add_id enc_ids].
  - destruct ids as [|x ids]; [reflexivity|]. rewrite map_app. cbn [map].
    rewrite (join_snoc comma (to_dec x :: map to_dec ids)) by congruence. reflexivity.
  - rewrite map_app, concat_app. cbn [map concat]. rewrite app_nil_r. destruct ids; reflexivity.
Qed.

(** ** lookups *)
Definition ids_ok (R : reg) : Prop := Forall (fun e => id_ok (fst e)) R.

Lemma ids_of_ok R l : ids_ok R -> Forall id_ok (ids_of R l).
Proof.
  intros H. unfold ids_of. induction H as [|e R He H IH]; cbn [filter]; [constructor|].
  destruct (has (snd e) l); cbn [map]; [constructor|]; assumption.
Qed.
Lemma ids_of_app R R' l : ids_of (R ++ R') l = ids_of R l ++ ids_of R' l.
Proof. unfold ids_of. now rewrite filter_app, map_app. Qed.

Lemma by_labels_run ix s R ls : rep ix s R -> ids_ok R -> set_ok ls ->
  krun (series_id_by_labels ix ls) s = (Ok (option_map fst (lookup_set R ls)), s).
Proof.
  intros (HL & _) Hid Hls. specialize (HL ls Hls).
  assert (Hi: forall e, lookup_set R ls = Some e -> id_ok (fst e)).
  { intros e E. apply find_some in E as [E _]. apply in_rev in E. unfold ids_ok in Hid.
    rewrite Forall_forall in Hid. now apply Hid. }
  destruct ix; cbn [series_id_by_labels]; unfold sled_by_labels, tikv_by_labels;
    (rewrite (krun_qbind _ _ s _ s (krun_get _ _)));
    unfold lkey, pfx in HL; cbn [app] in HL; rewrite HL;
    destruct (lookup_set R ls) as [e|]; cbn [option_map krun enc_id]; try reflexivity.
  - rewrite parse_id_dec by now apply Hi. reflexivity.
  - rewrite id_of_be by now apply Hi. reflexivity.
Qed.

(** ** searching *)
Definition kn (R : reg) (q : list label) := filter (known R) q.

Lemma known_ids R l : known R l = true <-> ids_of R l <> [].
Proof.
  unfold known, ids_of. induction R as [|e R IH]; cbn; [split; [discriminate|congruence]|].
  destruct (has (snd e) l) eqn:E; cbn; [split; [congruence|reflexivity]|exact IH].
Qed.

Lemma somes_ids R q :
  somes (map (fun l => match ids_of R l with [] => None | ids => Some ids end) q) = map (ids_of R) (kn R q).
Proof.
  induction q as [|l q IH]; [reflexivity|]. cbn [map somes flat_map kn filter]. unfold kn in *. fold (somes (A:=list Z)).
  unfold somes in IH. rewrite IH.
  destruct (known R l) eqn:E.
  - apply known_ids in E. destruct (ids_of R l) eqn:F; [congruence|]. cbn [map app]. now rewrite F.
  - destruct (ids_of R l) eqn:F; [reflexivity|]. exfalso.
    assert (known R l = true) by (apply known_ids; congruence). congruence.
Qed.

Lemma asc_filter (R : reg) f : ascending (map fst R) -> ascending (map fst (filter f R)).
Proof.
  induction R as [|e R IH]; intros H; [constructor|]. cbn [map] in H. apply asc_inv in H as [H1 H2].
  cbn [filter]. destruct (f e); [|now apply IH]. cbn [map]. constructor; [now apply IH|].
  rewrite Forall_forall in *. intros x Hx. apply H2. apply in_map_iff in Hx as (y & <- & Hy).
  apply filter_In in Hy as [Hy _]. now apply in_map.
Qed.
Lemma asc_NoDup l : ascending l -> NoDup l.
Proof.
  induction l as [|x l IH]; intros H; constructor; apply asc_inv in H as [H1 H2].
  - intros Hi. rewrite Forall_forall in H2. specialize (H2 _ Hi). lia.
  - now apply IH.
Qed.
Lemma reg_unique (R : reg) e e' : NoDup (map fst R) -> In e R -> In e' R -> fst e = fst e' -> e = e'.
Proof.
  induction R as [|x R IH]; intros N H H' E; [contradiction|]. cbn [map] in N. inversion N as [|k ks N1 N2]; subst.
  destruct H as [->|H]; destruct H' as [->|H'].
  - reflexivity.
  - exfalso. apply N1. rewrite E. now apply in_map.
  - exfalso. apply N1. rewrite <- E. now apply in_map.
  - now apply IH.
Qed.

Lemma ids_of_In R l x : In x (ids_of R l) <-> exists e, In e R /\ fst e = x /\ has (snd e) l = true.
Proof.
  unfold ids_of. rewrite in_map_iff. split.
  - intros (e & <- & H). apply filter_In in H as [H1 H2]. eauto.
  - intros (e & H1 & <- & H2). exists e. split; [reflexivity|]. apply filter_In; auto.
Qed.

Lemma search_regs_In R q e : In e (search_regs R q) <->
  In e R /\ (exists l, In l q /\ known R l = true) /\
  (forall l, In l q -> known R l = true -> has (snd e) l = true).
Proof.
  unfold search_regs. destruct (existsb (known R) q) eqn:E.
  - apply existsb_exists in E. rewrite filter_In, forallb_forall. split.
    + intros [H1 H2]. split; [assumption|]. split; [assumption|]. intros l Hl Hk.
      specialize (H2 l Hl). rewrite Hk in H2. exact H2.
    + intros (H1 & _ & H2). split; [assumption|]. intros l Hl. destruct (known R l) eqn:K; [|reflexivity].
      cbn. now apply H2.
  - split; [intros []|]. intros (_ & (l & Hl & Hk) & _).
    assert (existsb (known R) q = true) by (apply existsb_exists; eauto). congruence.
Qed.

Lemma search_ids R q o : ids_ok R -> ascending (map fst R) ->
  intersect_time_series_id_vec o (map (ids_of R) (kn R q)) = Some (map fst (search_regs R q)).
Proof.
  intros Hi Ha.
  assert (F: Forall ascending (map (ids_of R) (kn R q))).
  { apply Forall_forall. intros x Hx. apply in_map_iff in Hx as (l & <- & _). now apply asc_filter. }
  destruct (intersect_exact o _ F) as (r & -> & A & B). f_equal. apply asc_unique; [assumption| |].
  - unfold search_regs. destruct (existsb _ q); [now apply asc_filter|constructor].
  - intros x. rewrite B, in_map_iff. rewrite Forall_forall. split.
    + intros [Hne H].
      assert (exists l, In l (kn R q)) as (l0 & Hl0).
      { clear -Hne. destruct (kn R q) as [|l0 ?]; [now elim Hne|]. exists l0. now left. }
      pose proof (H _ (in_map (ids_of R) _ _ Hl0)) as Hx. apply ids_of_In in Hx as (e & He & <- & Hh).
      exists e. split; [reflexivity|]. apply search_regs_In. apply filter_In in Hl0 as [Hq Hk].
      split; [assumption|]. split; [eauto|]. intros l Hl Hkl.
      assert (In l (kn R q)) as Hl' by (apply filter_In; auto).
      pose proof (H _ (in_map (ids_of R) _ _ Hl')) as Hx. apply ids_of_In in Hx as (e' & He' & E & Hh').
      assert (e' = e) by (apply (reg_unique R); try assumption; now apply asc_NoDup). now subst.
    + intros (e & <- & He). apply search_regs_In in He as (H1 & (l & Hl & Hk) & H2). split.
      * intros E. apply map_eq_nil in E. assert (In l (kn R q)) by (apply filter_In; auto). rewrite E in H. contradiction.
      * intros y Hy. apply in_map_iff in Hy as (l' & <- & Hl'). apply filter_In in Hl' as [Q1 Q2].
        apply ids_of_In. exists e. auto.
Qed.

Lemma tikv_gets_run keys s : krun (tikv_gets keys) s = (somes (map (kv_get s) keys), s).
Proof.
  induction keys as [|k keys IH]; [reflexivity|]. cbn [tikv_gets].
  rewrite krun_bind, krun_get. cbn beta iota. rewrite krun_bind, IH. cbn beta iota.
  cbn [krun map]. destruct (kv_get s k); reflexivity.
Qed.

Lemma contains_run ix o s R q : rep ix s R -> ids_ok R -> ascending (map fst R) -> Forall lab_ok q ->
  krun (series_id_contains_labels ix o q) s = (Ok (map fst (search_regs R q)), s).
Proof.
  intros (_ & HR & _) Hi Ha Hq. destruct ix; cbn [series_id_contains_labels].
  - unfold sled_contains.
    rewrite (krun_qbind _ _ s (map (fun l => match ids_of R l with [] => None | ids => Some ids end) q) s).
    + cbn [krun]. rewrite somes_ids, search_ids by assumption. reflexivity.
    + apply krun_forM_read. intros l Hl. rewrite Forall_forall in Hq. specialize (Hq l Hl).
      unfold sled_get_id. rewrite (krun_qbind _ _ s _ s (krun_get _ _)). cbn [krun].
      specialize (HR l Hq). unfold rkey, pfx in HR. cbn [app] in HR. rewrite HR.
      pose proof (ids_of_ok R l Hi) as Hids.
      destruct (ids_of R l) as [|x ids] eqn:E; [reflexivity|].
      rewrite sled_ids_decode by (congruence || assumption). reflexivity.
  - unfold tikv_contains. rewrite krun_bind, tikv_gets_run. cbn beta iota. cbn [krun]. f_equal.
    assert (E: somes (map (kv_get s) (map (fun l => ident ++ encode_label l) q)) =
               map (fun l => enc_ids (TiKvIndexer ident) (ids_of R l)) (kn R q)).
    { rewrite map_map. clear -HR Hq. induction Hq as [|l q Hl Hq IH]; [reflexivity|].
      cbn [map somes flat_map kn filter]. unfold kn in *. unfold somes in IH. rewrite IH.
      specialize (HR l Hl). unfold rkey, pfx in HR. rewrite HR.
      destruct (known R l) eqn:E.
      - apply known_ids in E. destruct (ids_of R l) eqn:F; [congruence|]. cbn [map app]. now rewrite F.
      - destruct (ids_of R l) eqn:F; [reflexivity|]. exfalso.
        assert (known R l = true) by (apply known_ids; congruence). congruence. }
    rewrite E.
    assert (D: mapM (fun v => mapM id_of_bytes (chunks 8 v))
                 (map (fun l => enc_ids (TiKvIndexer ident) (ids_of R l)) (kn R q)) = Ok (map (ids_of R) (kn R q))).
    { apply mapM_ok. generalize (kn R q). intros l. induction l; cbn [map]; constructor; [|assumption].
      apply tikv_ids_decode. now apply ids_of_ok. }
    rewrite D. cbn [rbind]. now rewrite search_ids.
Qed.

Lemma lookup_id_In R e : NoDup (map fst R) -> In e R -> lookup_id R (fst e) = Some e.
Proof.
  intros N H. unfold lookup_id. destruct (find (fun e' => fst e' =? fst e) (rev R)) as [e'|] eqn:E.
  - apply find_some in E as [E1 E2]. apply in_rev in E1. f_equal. apply (reg_unique R); try assumption. lia.
  - exfalso. pose proof (find_none _ _ E e) as N'. cbn beta in N'. rewrite Z.eqb_refl in N'.
    discriminate N'. now apply -> in_rev.
Qed.

Definition sets_ok (R : reg) : Prop := Forall (fun e => set_ok (snd e)) R.

Lemma decode_stored (e : Z * list label) l : set_ok (snd e) -> has (snd e) l = true ->
  decode_labels (encode_labels (snd e) false) false = Ok (sort_labels (snd e)).
Proof.
  intros (H & _) Hh. apply decode_encode_iff. split; [|assumption].
  intros E. rewrite E in Hh. discriminate.
Qed.

Definition meta (e : Z * list label) : Z * list label := (fst e, sort_labels (snd e)).

Lemma metadata_run ix o s R q : rep ix s R -> ids_ok R -> sets_ok R -> ascending (map fst R) -> Forall lab_ok q ->
  krun (series_metadata_contains_labels ix o q) s = (Ok (map meta (search_regs R q)), s).
Proof.
  intros Hrep Hi Hs Ha Hq. pose proof (contains_run ix o s R q Hrep Hi Ha Hq) as C.
  destruct Hrep as (_ & _ & HI).
  assert (P: forall e, In e (search_regs R q) ->
    kv_get s (ikey ix (fst e)) = Some (encode_labels (snd e) false) /\
    decode_labels (encode_labels (snd e) false) false = Ok (sort_labels (snd e))).
  { intros e He. apply search_regs_In in He as (H1 & (l & Hl & Hk) & H2).
    unfold ids_ok in Hi. unfold sets_ok in Hs. rewrite Forall_forall in Hi, Hs.
    specialize (Hs _ H1). specialize (Hi _ H1). split.
    - rewrite HI by assumption. rewrite lookup_id_In by (try assumption; now apply asc_NoDup). reflexivity.
    - apply (decode_stored e l Hs). now apply H2. }
  destruct ix; cbn [series_metadata_contains_labels series_id_contains_labels] in *.
  - unfold sled_metadata. rewrite (krun_qbind _ _ s _ s C).
    rewrite (krun_qbind _ _ s (map (fun id => option_map meta (lookup_id R id)) (map fst (search_regs R q))) s).
    + cbn [krun]. f_equal. f_equal.
      assert (G: forall L, (forall e, In e L -> In e R) ->
        somes (map (fun id => option_map meta (lookup_id R id)) (map fst L)) = map meta L).
      { induction L as [|e L IH]; intros HL; [reflexivity|]. cbn [map somes flat_map].
        rewrite (lookup_id_In R e) by (try (apply HL; now left); now apply asc_NoDup).
        cbn [option_map app]. f_equal. apply IH. intros e' He'. apply HL. now right. }
      apply G. intros e He. now apply search_regs_In in He.
    + apply krun_forM_read. intros id Hid. apply in_map_iff in Hid as (e & <- & He).
      rewrite (krun_qbind _ _ s _ s (krun_get _ _)). cbn [krun].
      destruct (P e He) as [P1 P2]. unfold ikey, pfx in P1. cbn [app] in P1. rewrite P1, P2.
      rewrite lookup_id_In by (try (apply search_regs_In in He; tauto); now apply asc_NoDup). reflexivity.
  - unfold tikv_metadata. rewrite (krun_qbind _ _ s _ s C). rewrite krun_bind.
    assert (G: forall L, (forall e, In e L -> In e (search_regs R q)) ->
      krun (tikv_metas ident (map fst L)) s = (map meta L, s)).
    { induction L as [|e L IH]; intros HL; [reflexivity|]. cbn [map tikv_metas].
      rewrite krun_bind, krun_get. cbn beta iota. rewrite krun_bind, IH by (intros; apply HL; now right).
      cbn beta iota. cbn [krun]. destruct (P e (HL e (or_introl eq_refl))) as [P1 P2].
      unfold ikey, pfx in P1. rewrite P1, P2. reflexivity. }
    rewrite G by auto. reflexivity.
Qed.

(** ** creating *)
Definition rmem ix (ls : list label) (k : bytes) : bool := existsb (fun l => bytes_eqb (rkey ix l) k) ls.

Lemma rmem_false ix ls k : rmem ix ls k = false <-> forall l, In l ls -> rkey ix l <> k.
Proof.
  unfold rmem. split.
  - intros H l Hl E. assert (existsb (fun l => bytes_eqb (rkey ix l) k) ls = true); [|congruence].
    apply existsb_exists. exists l. split; [assumption|]. now apply bytes_eqb_spec.
  - intros H. destruct (existsb _ ls) eqn:E; [|reflexivity]. apply existsb_exists in E as (l & Hl & E).
    apply bytes_eqb_spec in E. exfalso. now apply (H l).
Qed.

Definition add_reverse ix id (ls : list label) : prog kcmd (res unit) :=
  match ix with
  | SledIndexer => let? _ := forM (sled_add_reverse id) ls in Ret (Ok tt)
  | TiKvIndexer i => let! _ := tikv_add_reverse i id ls in Ret (Ok tt)
  end.

Lemma add_one ix id l s : 
  (match ix with
   | SledIndexer => krun (sled_add_reverse id l) s
   | TiKvIndexer i => krun (let! _ := tikv_add_reverse i id [l] in Ret (Ok tt)) s
   end) = (Ok tt, kv_set s (rkey ix l) (add_id ix (kv_get s (rkey ix l)) id)).
Proof. destruct ix; reflexivity. Qed.

Lemma add_reverse_run ix id ls : Forall lab_ok ls -> NoDup ls -> forall s,
  exists s', krun (add_reverse ix id ls) s = (Ok tt, s') /\
    (forall k, kv_get s' k = if rmem ix ls k then Some (add_id ix (kv_get s k) id) else kv_get s k).
Proof.
  intros Hok Hnd. induction ls as [|l ls IH]; intros s.
  - exists s. destruct ix; split; reflexivity.
  - inversion Hok as [|x xs Hl Hls]; subst. inversion Hnd as [|x xs Hn Hnd']; subst.
    destruct (IH Hls Hnd' (kv_set s (rkey ix l) (add_id ix (kv_get s (rkey ix l)) id))) as (s' & E & G).
    exists s'. split.
    + destruct ix; cbn [add_reverse] in *.
      * cbn [forM]. unfold qbind at 1 2. rewrite krun_bind. rewrite krun_bind.
        rewrite (add_one SledIndexer id l s). cbn beta iota.
        unfold qbind in E at 1. rewrite krun_bind in E. unfold qbind at 1. rewrite krun_bind.
        destruct (krun (forM (sled_add_reverse id) ls) _) as [[a|e|] s1] eqn:F; cbn [krun] in *; congruence.
      * cbn [tikv_add_reverse]. exact E.
    + intros k. rewrite G. cbn [rmem existsb]. fold (rmem ix ls k).
      destruct (rmem ix ls k) eqn:M; [|rewrite orb_false_r; cbn [kv_get kv_set]; destruct (bytes_eqb (rkey ix l) k) eqn:B; [apply bytes_eqb_spec in B; now subst|reflexivity]].
      rewrite orb_true_r. f_equal. f_equal. rewrite kv_get_set_other; [reflexivity|].
      intros E'. unfold rmem in M. apply existsb_exists in M as (l' & Hl' & B). apply bytes_eqb_spec in B.
      assert (l = l'). { apply (rkey_inj ix); [assumption| |congruence]. rewrite Forall_forall in Hls. now apply Hls. }
      now subst.
Qed.

Lemma lookup_set_snoc R e ls :
  lookup_set (R ++ [e]) ls = if same_setb (snd e) ls then Some e else lookup_set R ls.
Proof. unfold lookup_set. rewrite rev_app_distr. reflexivity. Qed.
Lemma lookup_id_snoc R e id :
  lookup_id (R ++ [e]) id = if fst e =? id then Some e else lookup_id R id.
Proof. unfold lookup_id. rewrite rev_app_distr. reflexivity. Qed.

(* the store after the three groups of writes *)
Lemma rep_create ix s R ls id s1 s2 :
  rep ix s R -> set_ok ls -> id_ok id ->
  (s1 = kv_set (kv_set s (lkey ix ls) (enc_id ix id)) (ikey ix id) (encode_labels ls false) \/
   s1 = kv_set (kv_set s (ikey ix id) (encode_labels ls false)) (lkey ix ls) (enc_id ix id)) ->
  (forall k, kv_get s2 k = if rmem ix ls k then Some (add_id ix (kv_get s1 k) id) else kv_get s1 k) ->
  rep ix s2 (R ++ [(id, ls)]).
Proof.
  intros (HL & HR & HI) Hset Hid Hs1 Hs2.
  assert (Hls: Forall lab_ok ls) by apply Hset.
  assert (D: keys_distinct ls) by apply Hset.
  assert (G1: forall k, kv_get s1 k = if bytes_eqb (lkey ix ls) k then Some (enc_id ix id)
     else if bytes_eqb (ikey ix id) k then Some (encode_labels ls false) else kv_get s k).
  { intros k. destruct Hs1 as [-> | ->]; cbn [kv_get kv_set]; [|reflexivity].
    destruct (bytes_eqb (ikey ix id) k) eqn:B1; [|reflexivity].
    destruct (bytes_eqb (lkey ix ls) k) eqn:B2; [|reflexivity].
    apply bytes_eqb_spec in B1, B2. exfalso. apply (ikey_lkey ix id ls). congruence. }
  clear Hs1. split; [|split].
  - intros q Hq. rewrite Hs2.
    assert (M: rmem ix ls (lkey ix q) = false).
    { apply rmem_false. intros l Hl E. rewrite Forall_forall in Hls. symmetry in E. revert E. apply lkey_rkey; auto. }
    rewrite M, G1, lookup_set_snoc. cbn [snd].
    destruct (bytes_eqb (lkey ix ls) (lkey ix q)) eqn:B.
    + apply bytes_eqb_spec in B. assert (P: Permutation ls q) by (apply (lkey_inj ix); assumption).
      assert (same_setb ls q = true) as -> by (apply same_setb_spec; [assumption|apply Hq|assumption]). reflexivity.
    + assert (same_setb ls q = false) as ->.
      { destruct (same_setb ls q) eqn:Q; [|reflexivity]. apply same_setb_spec in Q; [|assumption|apply Hq].
        rewrite (lkey_perm ix ls q D Q), bytes_eqb_refl in B. discriminate. }
      rewrite (bytes_eqb_neq _ _ (ikey_lkey ix id q)). now apply HL.
  - intros l Hl. rewrite Hs2. rewrite G1.
    rewrite (bytes_eqb_neq _ _ (lkey_rkey ix ls l Hset Hl)).
    rewrite (bytes_eqb_neq _ _ (ikey_rkey ix id l)). rewrite HR by assumption.
    rewrite ids_of_app. change (ids_of [(id, ls)] l) with (map fst (if has ls l then [(id, ls)] else [])).
    destruct (has ls l) eqn:Hh.
    + assert (rmem ix ls (rkey ix l) = true) as ->.
      { unfold rmem. apply existsb_exists. exists l. split; [now apply has_In|apply bytes_eqb_refl]. }
      cbn [map fst]. pose proof (add_id_enc ix (ids_of R l) id) as AE. destruct (ids_of R l); cbn [app] in *; f_equal; exact AE.
    + assert (rmem ix ls (rkey ix l) = false) as ->.
      { apply rmem_false. intros l' Hl' E. rewrite Forall_forall in Hls.
        assert (l' = l) by (apply (rkey_inj ix); auto). subst. apply has_In in Hl'. congruence. }
      cbn [map]. rewrite app_nil_r. rewrite ?HR by assumption. destruct (ids_of R l); reflexivity.
  - intros i Hi. rewrite Hs2.
    assert (M: rmem ix ls (ikey ix i) = false).
    { apply rmem_false. intros l Hl E. symmetry in E. revert E. apply ikey_rkey. }
    rewrite M, G1, lookup_id_snoc. cbn [fst].
    assert (bytes_eqb (lkey ix ls) (ikey ix i) = false) as ->.
    { apply bytes_eqb_neq. intros E. symmetry in E. revert E. apply ikey_lkey. }
    destruct (id =? i) eqn:E.
    + assert (id = i) by lia. subst. now rewrite bytes_eqb_refl.
    + rewrite bytes_eqb_neq; [now apply HI|]. intros K. apply ikey_inj in K; [lia|assumption..].
Qed.

Lemma lookup_set_some R ls : (exists e, lookup_set R ls = Some e) <-> existsb (fun e => same_setb (snd e) ls) R = true.
Proof.
  unfold lookup_set. rewrite existsb_exists. split.
  - intros (e & E). apply find_some in E as [E1 E2]. apply in_rev in E1. eauto.
  - intros (e & E1 & E2). destruct (find _ (rev R)) as [e'|] eqn:F; [eauto|].
    apply in_rev in E1. pose proof (find_none _ _ F e E1). cbn beta in H. congruence.
Qed.

Lemma sled_create_run s R ls id : rep SledIndexer s R -> set_ok ls -> id_ok id ->
  if existsb (fun e => same_setb (snd e) ls) R
  then krun (create_index SledIndexer ls id) s = (Err InternalErr, s)
  else exists s', krun (create_index SledIndexer ls id) s = (Ok tt, s') /\ rep SledIndexer s' (R ++ [(id, ls)]).
Proof.
  intros Hrep Hset Hid. pose proof (proj1 Hrep ls Hset) as HL. unfold lkey, pfx in HL. cbn [app] in HL.
  cbn [create_index]. unfold sled_create.
  rewrite (krun_qbind _ _ s _ s (krun_get _ _)). rewrite HL.
  destruct (existsb (fun e => same_setb (snd e) ls) R) eqn:E.
  - apply lookup_set_some in E as (e & ->). reflexivity.
  - assert (lookup_set R ls = None) as ->.
    { destruct (lookup_set R ls) eqn:F; [|reflexivity].
      assert (existsb (fun e => same_setb (snd e) ls) R = true) by (apply lookup_set_some; eauto). congruence. }
    cbn [option_map]. rewrite krun_bind, krun_set. cbn beta iota. rewrite krun_bind, krun_set. cbn beta iota.
    destruct (add_reverse_run SledIndexer id ls (proj1 Hset) (distinct_NoDup _ (proj1 (proj2 Hset)))
      (kv_set (kv_set s (encode_labels ls true) (to_dec id)) (encode_time_series_id id) (encode_labels ls false)))
      as (s' & Ek & G).
    exists s'. split; [exact Ek|]. eapply rep_create; [exact Hrep|assumption..| |exact G]. left. reflexivity.
Qed.

Lemma tikv_create_run i s R ls id : rep (TiKvIndexer i) s R -> set_ok ls -> id_ok id ->
  exists s', krun (create_index (TiKvIndexer i) ls id) s = (Ok tt, s') /\ rep (TiKvIndexer i) s' (R ++ [(id, ls)]).
Proof.
  intros Hrep Hset Hid. cbn [create_index]. unfold tikv_create.
  rewrite krun_bind, krun_set. cbn beta iota. rewrite krun_bind, krun_set. cbn beta iota.
  destruct (add_reverse_run (TiKvIndexer i) id ls (proj1 Hset) (distinct_NoDup _ (proj1 (proj2 Hset)))
      (kv_set (kv_set s (i ++ encode_time_series_id id) (encode_labels ls false)) (i ++ encode_labels ls true) (be_bytes 8 id)))
      as (s' & Ek & G).
  exists s'. split; [exact Ek|]. eapply rep_create; [exact Hrep|assumption..| |exact G]. right. reflexivity.
Qed.
