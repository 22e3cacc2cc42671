(* Proofs: what is refused, and how. *)
From Verif Require Import Rust Prog Bstream BitSpec BstreamProofs Labels IndexSpec Compactor LabelProofs Wal WalSpec WalProofs TiKvInit TiKvShared StorageProofs IndexProofs TiKvSpec TiKvProofs.

(** ** label texts *)
Lemma join_split c s : join c (split_on c s) = s.
Proof.
  induction s as [|x s IH]; [reflexivity|]. cbn [split_on]. destruct (split_on c s) as [|w ws] eqn:E.
  { exfalso. pose proof (split_on_length c s) as L. rewrite E in L. discriminate. }
  destruct (x =? c) eqn:X.
  - rewrite join_cons, IH. cbn [app]. f_equal. lia.
  - destruct ws as [|v ws]; cbn [join] in *; [now subst|]. cbn [app]. now rewrite IH.
Qed.
Lemma split_pieces c s : Forall (fun p => ~ In c p) (split_on c s).
Proof.
  induction s as [|x s IH]; cbn [split_on]; [repeat constructor; auto|]. destruct (x =? c) eqn:X; [constructor; auto|].
  destruct (split_on c s) as [|w ws]; inversion IH; subst; constructor; auto; cbn [In]; intuition lia.
Qed.
Lemma split_ne c s : split_on c s <> [].
Proof. intros E. pose proof (split_on_length c s) as L. rewrite E in L. discriminate. Qed.
Lemma text_join r : label_text r = join comma (map encode_pair r).
Proof. induction r as [|x [|y r] IH]; [reflexivity|reflexivity|]. change (label_text (x :: y :: r)) with (l_key x ++ [equals] ++ l_val x ++ [comma] ++ label_text (y :: r)). change (map encode_pair (x :: y :: r)) with (encode_pair x :: encode_pair y :: map encode_pair r). rewrite join_cons, IH. unfold encode_pair. now rewrite <- !app_assoc. Qed.
Theorem decode_text s r : decode_labels s false = Ok r <-> r <> [] /\ Forall lab_ok r /\ s = label_text r.
Proof.
  unfold decode_labels. cbn [rbind]. rewrite mapM_ok, text_join. split.
  - intros H. pose proof (split_pieces comma s) as P. pose proof (join_split comma s) as J. pose proof (split_ne comma s) as N.
    assert (E: split_on comma s = map encode_pair r /\ Forall lab_ok r).
    { clear J N. induction H as [|p l ps ls Hp H IH]; [split; [reflexivity|constructor]|]. inversion P; subst. destruct IH as [-> F]; [assumption|].
      apply decode_pair_inv in Hp as [-> Hk]. split; [reflexivity|]. constructor; [|assumption]. apply lab_ok_pair. auto. }
    destruct E as [E F]. split; [|split; [exact F|congruence]]. intros ->. now apply N.
  - intros (N & F & ->). rewrite split_on_join.
    + clear N. induction F as [|l r Hl F IH]; [constructor|]. cbn [map]. constructor; [|assumption]. apply lab_ok_pair in Hl. now apply decode_pair_encode.
    + destruct r; [congruence|discriminate].
    + rewrite Forall_forall in *. intros p Hp. apply in_map_iff in Hp as (l & <- & Hl). now apply lab_ok_pair, F.
Qed.
Theorem decode_refuses s : decode_labels s false <> Panic /\ (forall e, decode_labels s false = Err e -> e = InternalErr).
Proof.
  unfold decode_labels. cbn [rbind]. induction (split_on comma s) as [|p ps [IH1 IH2]]; cbn [mapM]; [split; discriminate|].
  unfold decode_pair at 1 3. destruct (find_char equals p); cbn [rbind]; [|split; [discriminate|congruence]].
  destruct (mapM decode_pair ps); cbn [rbind]; split; congruence || auto; discriminate.
Qed.

(** ** bytes appended *)
Theorem append_bytes_result dbg s bs rem xs : holds s xs ->
  (forall ys, holds (mkBs bs rem) ys -> bs_append_bytes dbg s bs rem = bs_append dbg s (mkBs bs rem)) /\
  (~ 0 <= rem <= 8 -> bs_append_bytes dbg s bs rem = Panic).
Proof.
  intros H. unfold bs_append_bytes. split.
  - intros ys (_ & Hr & _). cbn in Hr. replace ((rem <=? 8) && (0 <=? rem)) with true by lia. reflexivity.
  - intros Hr. replace ((rem <=? 8) && (0 <=? rem)) with false by lia. reflexivity.
Qed.

(** ** what TiKV may hold under a chunk's identifier *)
Theorem short_value s cid v : kv_get s cid = Some v -> (length v < 16)%nat ->
  (forall x u, krun (init_component cid x u) s = (Panic, s)) /\ krun (tikv_storage_read cid) s = (Panic, s) /\ krun (tikv_indexer_read cid) s = (Panic, s).
Proof.
  intros G L. assert (low16 v = Panic /\ high16 v = Panic) as [El Eh] by (unfold low16, high16; replace (16 <=? length v)%nat with false by lia; auto).
  split; [|split].
  - intros [|] u; unfold init_component; rewrite (krun_qbind _ _ s _ s (krun_get _ _)), G; cbn beta iota zeta; rewrite ?El, ?Eh; reflexivity.
  - unfold tikv_storage_read. rewrite (krun_qbind _ _ s _ s (krun_get _ _)), G, Eh. reflexivity.
  - unfold tikv_indexer_read. rewrite (krun_qbind _ _ s _ s (krun_get _ _)), G, El. reflexivity.
Qed.
Theorem no_value s cid : kv_get s cid = None -> krun (tikv_storage_read cid) s = (Ok None, s) /\ krun (tikv_indexer_read cid) s = (Ok None, s).
Proof.
  intros G. split; [unfold tikv_storage_read|unfold tikv_indexer_read]; rewrite (krun_qbind _ _ s _ s (krun_get _ _)), G; reflexivity.
Qed.
Theorem long_value s cid v : kv_get s cid = Some v -> (16 <= length v)%nat ->
  krun (tikv_storage_read cid) s = (Ok (Some (skipn 16 v)), s) /\ krun (tikv_indexer_read cid) s = (Ok (Some (firstn 16 v)), s).
Proof.
  intros G L. split; [unfold tikv_storage_read, high16|unfold tikv_indexer_read, low16]; rewrite (krun_qbind _ _ s _ s (krun_get _ _)), G; replace (16 <=? length v)%nat with true by lia; reflexivity.
Qed.

Theorem count_based_all limit w e es :
  fst (write_entries (seg_new (PNum limit) w) (e :: es)) = [Panic] /\
  s_writer (snd (write_entries (seg_new (PNum limit) w) (e :: es))) = s_writer (seg_new PImmediate w).
Proof. unfold seg_new. destruct (wr_write w _) as [r w']. split; reflexivity. Qed.
