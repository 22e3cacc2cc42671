(* Proofs about a server in front of a database over a real TiKV. *)
From Coq Require Import Permutation ZifyBool ZifyNat.
From Verif Require Import WireSpec WireMsgs WireWrong.
From Verif Require Import Rust Prog Gorilla GorillaSpec Storage StorageSpec StorageProofs Labels IndexSpec Indexer Chunk ChunkSpec Utils DirSpec
  TiKvInit TiKvShared TiKvSpec Db DbSpec ReopenSpec TiKvDb TiKvDbSpec MixDb MixSpec RangeSpec Proto ProtoSpec Server ServerSpec AskSpec TalkSpec TiKvCli.
From Verif Require Import StringProofs LabelProofs IndexProofs ChunkProofs ChunkFacts MapProofs DbProofs DbHist DbFacts RangeProofs ServerProofs AskProofs
  TiKvDbRun TiKvDbProofs TiKvDbMain MixRun MixEngine MixPoints MixIndex TalkProofs.

(** ** one operation more *)
Lemma t_after_snoc cf o ops : forall t rs t1, t_after_from cf ops t = Some (rs, t1) ->
  t_after_from cf (ops ++ [o]) t = match trun (top_prog cf o) t1 with Some (r, t') => Some (rs ++ [r], t') | None => None end.
Proof.
  induction ops as [|x ops IH]; intros t rs t1 E; cbn [t_after_from app] in *.
  - injection E as <- <-. destruct (trun _ t) as [[r t']|]; reflexivity.
  - destruct (trun (top_prog cf x) t) as [[r t']|]; [|discriminate]. destruct (t_after_from cf ops t') as [[rs' t'']|] eqn:E1; [|discriminate].
    injection E as <- <-. rewrite (IH _ _ _ E1). destruct (trun _ t'') as [[r' t3]|]; reflexivity.
Qed.
Lemma t_live_snoc cf o ops L : forall f s rss t, t_live (L ++ [mkLife cf ops]) f s = Some (rss, t) ->
  exists y rs, rss = y ++ [rs] /\
    t_live (L ++ [mkLife cf (ops ++ [o])]) f s = match trun (top_prog cf o) t with Some (r, t') => Some (y ++ [rs ++ [r]], t') | None => None end.
Proof.
  induction L as [|x L IH]; intros f s rss t E; cbn [app t_live] in *.
  - cbn [lf_cf lf_ops] in *. unfold t_after in *. destruct (t_open cf f s) as [[[] t0]|]; try discriminate.
    destruct (t_after_from cf ops t0) as [[rs t1]|] eqn:E1; [|discriminate]. injection E as <- <-. exists [], rs. split; [reflexivity|].
    rewrite (t_after_snoc _ o _ _ _ _ E1). destruct (trun _ t1) as [[]|]; reflexivity.
  - destruct (t_after (lf_cf x) f s (lf_ops x)) as [[rs t1]|]; [|discriminate].
    assert (N: forall A (a b : A) c, match L ++ [c] with [] => a | _ :: _ => b end = b) by (intros; destruct L; reflexivity).
    rewrite N in *. destruct (t_live (L ++ _) _ _) as [[rss' t']|] eqn:E1; [|discriminate]. injection E as <- <-.
    destruct (IH _ _ _ _ E1) as (y & rs' & -> & E2). exists (rs :: y), rs'. split; [reflexivity|]. rewrite E2. destruct (trun _ t') as [[]|]; reflexivity.
Qed.
Lemma x_after_snoc cf o ops : forall t rs t1, x_after_from cf ops t = Some (rs, t1) ->
  x_after_from cf (ops ++ [o]) t = match xrun (xop_prog cf o) t1 with Some (r, t') => Some (rs ++ [r], t') | None => None end.
Proof.
  induction ops as [|x ops IH]; intros t rs t1 E; cbn [x_after_from app] in *.
  - injection E as <- <-. destruct (xrun _ t) as [[r t']|]; reflexivity.
  - destruct (xrun (xop_prog cf x) t) as [[r t']|]; [|discriminate]. destruct (x_after_from cf ops t') as [[rs' t'']|] eqn:E1; [|discriminate].
    injection E as <- <-. rewrite (IH _ _ _ E1). destruct (xrun _ t'') as [[r' t3]|]; reflexivity.
Qed.
Lemma x_live_snoc cf o ops L : forall f s rss t, x_live (L ++ [mkLife cf ops]) f s = Some (rss, t) ->
  exists y rs, rss = y ++ [rs] /\
    x_live (L ++ [mkLife cf (ops ++ [o])]) f s = match xrun (xop_prog cf o) t with Some (r, t') => Some (y ++ [rs ++ [r]], t') | None => None end.
Proof.
  induction L as [|x L IH]; intros f s rss t E; cbn [app x_live] in *.
  - cbn [lf_cf lf_ops] in *. unfold x_after in *. destruct (x_open cf f s) as [[[] t0]|]; try discriminate.
    destruct (x_after_from cf ops t0) as [[rs t1]|] eqn:E1; [|discriminate]. injection E as <- <-. exists [], rs. split; [reflexivity|].
    rewrite (x_after_snoc _ o _ _ _ _ E1). destruct (xrun _ t1) as [[]|]; reflexivity.
  - destruct (x_after (lf_cf x) f s (lf_ops x)) as [[rs t1]|]; [|discriminate].
    assert (N: forall A (a b : A) c, match L ++ [c] with [] => a | _ :: _ => b end = b) by (intros; destruct L; reflexivity).
    rewrite N in *. destruct (x_live (L ++ _) _ _) as [[rss' t']|] eqn:E1; [|discriminate]. injection E as <- <-.
    destruct (IH _ _ _ _ E1) as (y & rs' & -> & E2). exists (rs :: y), rs'. split; [reflexivity|]. rewrite E2. destruct (xrun _ t') as [[]|]; reflexivity.
Qed.

Lemma shelf_ops_snoc cf o ops : forall d, let d' := fst (shelf_ops cf d ops) in
  shelf_ops cf d (ops ++ [o]) = (fst (shelf_op cf d' o), snd (shelf_ops cf d ops) ++ [snd (shelf_op cf d' o)]).
Proof.
  induction ops as [|x ops IH]; intros d; cbn [shelf_ops app].
  - cbn [fst snd app]. destruct (shelf_op cf d o). reflexivity.
  - destruct (shelf_op cf d x) as [d1 r]. rewrite IH. destruct (shelf_ops cf d1 ops) as [d2 rs]. reflexivity.
Qed.
Lemma shelf_lives_snoc clock cf L : forall tick n T, exists y d0, forall ops, shelf_lives clock tick n T (L ++ [mkLife cf ops]) = y ++ [shelf_ops cf d0 ops].
Proof.
  induction L as [|x L IH]; intros tick n T; cbn [app shelf_lives lf_cf lf_ops].
  - exists [], (open_shelf cf (clock (tick + n)%nat) T). reflexivity.
  - set (z := shelf_ops (lf_cf x) _ (lf_ops x)). destruct (IH (S (tick + n)) (n + S (swaps (lf_ops x)))%nat (sh_tab (fst z))) as (y & d0 & E). exists (z :: y), d0. intros ops. now rewrite E.
Qed.
Lemma tlives_prefix clock cf a b L : forall tick n last, tlives_ok clock tick n last (L ++ [mkLife cf (a ++ b)]) -> tlives_ok clock tick n last (L ++ [mkLife cf a]).
Proof.
  induction L as [|x L IH]; intros tick n last H; cbn [app tlives_ok lf_cf lf_ops] in *.
  - destruct H as (H1 & H2 & H3 & H4 & H5 & _). apply ops_ok_prefix in H5. tauto.
  - destruct H as (H1 & H2 & H3 & H4 & H5 & H6). repeat (split; [assumption|]). eapply IH, H6.
Qed.
Lemma mlives_prefix st ix clock cf a b L : forall tick n last, mlives_ok st ix clock tick n last (L ++ [mkLife cf (a ++ b)]) -> mlives_ok st ix clock tick n last (L ++ [mkLife cf a]).
Proof.
  induction L as [|x L IH]; intros tick n last H; cbn [app mlives_ok lf_cf lf_ops] in *.
  - destruct H as (H1 & H2 & H3 & H4 & H5 & _). apply ops_ok_prefix in H5. tauto.
  - destruct H as (H1 & H2 & H3 & H4 & H5 & H6). repeat (split; [assumption|]). eapply IH, H6.
Qed.

(** ** the points of the table *)
Definition good_table (T : table) : Prop := forall i, Forall tp_ok (T i).
Lemma good_append T n p : good_table T -> tp_ok p -> good_table (append T n p).
Proof. intros G P i. unfold append. destruct (i =? n); [destruct (later _ _)|]; [apply Forall_app; split; [apply G|constructor; [exact P|constructor]]|apply G..]. Qed.
Lemma good_put ch ks T ls p : good_table T -> tp_ok p -> good_table (snd (fst (put ch (ks, T) ls p))).
Proof. intros G P. unfold put. destruct (in_windowb _ _); [|exact G]. destruct (place _ _ _); cbn [fst snd]; now apply good_append. Qed.
Lemma good_puts ch ls pts : forall x, good_table (snd x) -> Forall tp_ok pts -> good_table (snd (fst (puts ch x ls pts))).
Proof.
  induction pts as [|p pts IH]; intros [ks T] G P; cbn [puts]; [exact G|]. apply Forall_cons_iff in P as [P1 P2].
  pose proof (good_put ch ks T ls p G P1) as G1. destruct (put ch (ks, T) ls p) as [x' b]. cbn [fst snd] in G1.
  specialize (IH x' G1 P2). destruct (puts ch x' ls pts) as [x'' b']. exact IH.
Qed.
Lemma good_op cf d o : good_table (sh_tab d) -> Forall ireq_ok (written [o]) -> good_table (sh_tab (fst (shelf_op cf d o))).
Proof.
  intros G W. destruct o as [ls p|ls pts|st]; cbn [shelf_op written app] in *; [| |exact G].
  - apply Forall_cons_iff in W as [[_ W] _]. cbn [snd] in W. pose proof (good_put (sh_cur d) (sh_sets d) (sh_tab d) ls p G W) as G1.
    destruct (put _ _ ls p) as [[ks T] b]. exact G1.
  - rewrite app_nil_r in W. assert (P: Forall tp_ok pts).
    { rewrite Forall_forall in *. intros p Hp. apply (W (ls, p)). now apply in_map. }
    pose proof (good_puts (sh_cur d) ls pts (sh_sets d, sh_tab d) G P) as G1. destruct (puts _ _ ls pts) as [[ks T] b]. exact G1.
Qed.
Lemma good_ops cf ops : forall d, good_table (sh_tab d) -> Forall ireq_ok (written ops) -> good_table (sh_tab (fst (shelf_ops cf d ops))).
Proof.
  induction ops as [|o ops IH]; intros d G W; cbn [shelf_ops]; [exact G|]. change (o :: ops) with ([o] ++ ops) in W. rewrite written_app in W. apply Forall_app in W as [W1 W2].
  pose proof (good_op cf d o G W1) as G1. destruct (shelf_op cf d o) as [d' r]. specialize (IH d' G1 W2). destruct (shelf_ops cf d' ops). exact IH.
Qed.
Lemma good_lives clock L : forall tick n T, good_table T -> Forall (fun x => Forall ireq_ok (written (lf_ops x))) L -> Forall (fun y => good_table (sh_tab (fst y))) (shelf_lives clock tick n T L).
Proof.
  induction L as [|x L IH]; intros tick n T G W; cbn [shelf_lives]; [constructor|]. apply Forall_cons_iff in W as [W1 W2].
  assert (G1: good_table (sh_tab (fst (shelf_ops (lf_cf x) (open_shelf (lf_cf x) (clock (tick + n)%nat) T) (lf_ops x))))) by (apply good_ops; assumption).
  constructor; [exact G1|]. now apply IH.
Qed.
Lemma tlives_written clock L : forall tick n last, tlives_ok clock tick n last L -> Forall (fun x => Forall ireq_ok (written (lf_ops x))) L.
Proof. induction L as [|x L IH]; intros tick n last H; [constructor|]. destruct H as (_ & _ & _ & _ & (_ & _ & _ & _ & _ & H & _) & H'). constructor; [exact H|eapply IH, H']. Qed.
Lemma mlives_written st ix clock L : forall tick n last, mlives_ok st ix clock tick n last L -> Forall (fun x => Forall ireq_ok (written (lf_ops x))) L.
Proof. induction L as [|x L IH]; intros tick n last H; [constructor|]. destruct H as (_ & _ & _ & _ & (_ & _ & _ & _ & _ & H & _) & H'). constructor; [exact H|eapply IH, H']. Qed.
Lemma good_seen ks T : good_table T -> forall n ls pts p, In (ls, pts) (seen n ks T) -> In p pts -> u64 (tp_ts p).
Proof.
  intros G. induction ks as [|k ks IH]; intros n ls pts p H Hp; [destruct H|]. destruct H as [E|H]; [|eapply IH; eassumption].
  assert (pts = T n) as -> by congruence. specialize (G n). rewrite Forall_forall in G. apply G, Hp.
Qed.
Lemma good_parts d : good_table (sh_tab d) -> forall c ls pts p, In c (shelf_parts d) -> In (ls, pts) (snd c) -> In p pts -> u64 (tp_ts p).
Proof.
  intros G c ls pts p Hc H. unfold shelf_parts in Hc. apply in_map_iff in Hc as ((c0 & ks) & <- & _). cbn [fst snd] in H. eapply good_seen; eassumption.
Qed.
Lemma shelf_no_panic cf d o : snd (shelf_op cf d o) <> Panic.
Proof.
  destruct o as [ls p|ls pts|st]; cbn [shelf_op].
  - destruct (put _ _ _ _) as [[ks T] b]. cbn [snd]. destruct (in_windowb _ _); [destruct b|]; discriminate.
  - destruct (puts _ _ _ _) as [[ks T] b]. cbn [snd]. destruct (_ || _); discriminate.
  - discriminate.
Qed.

(** ** the sessions *)
Lemma talk_tikv f s L cf ops : env_ok f -> empty_dir f -> new_uuids f s -> no_points s ->
  tlives_ok (f_clock f) (f_ticks f) 0 (-1) (L ++ [mkLife cf ops]) ->
  exists y d t, shelf_lives (f_clock f) (f_ticks f) 0 no_table (L ++ [mkLife cf ops]) = y ++ [d] /\
    t_live (L ++ [mkLife cf ops]) f s = Some (map snd (y ++ [d]), t) /\
    forall sv z bs (ch : nat -> choices) rqs l k, bs_contract bs -> (forall k n, hasher_ok (fst (ch k n))) -> Forall2 (brings sv z) rqs l ->
      talk_sane (shelf_op cf) shelf_parts ch z (fst d) l ->
      tlives_ok (f_clock f) (f_ticks f) 0 (-1) (L ++ [mkLife cf (ops ++ all_ops (shelf_op cf) (fst d) l)]) ->
      exists rss r t' more rs, trun (lift (@TD) (serve sv z bs ch k rqs)) t = Some ((rss, r), t') /\
        (r = Panic -> forall rest, trun (lift (@TD) (serve sv z bs ch k (rqs ++ rest))) t = Some ((rss, r), t')) /\
        t_live (L ++ [mkLife cf (ops ++ more)]) f s = Some (rs, t') /\
        talk (shelf_op cf) shelf_parts z (fst d) l rss r more.
Proof.
  intros He Hd Hu Hn OK. destruct (shelf_lives_snoc (f_clock f) cf L (f_ticks f) 0 no_table) as (y & d0 & SL).
  assert (LV: forall a, tlives_ok (f_clock f) (f_ticks f) 0 (-1) (L ++ [mkLife cf a]) ->
    exists t, t_live (L ++ [mkLife cf a]) f s = Some (map snd y ++ [snd (shelf_ops cf d0 a)], t) /\
      good_table (sh_tab (fst (shelf_ops cf d0 a))) /\
      forall hs bs o q u v, hasher_ok hs -> bs_contract bs -> Forall lab_ok q -> unmixed hs (shelf_parts (fst (shelf_ops cf d0 a))) q u v ->
      exists r, trun (t_query hs bs o q u v) t = Some (r, t) /\ comes_to (shelf_parts (fst (shelf_ops cf d0 a))) q u v r).
  { intros a OKa. destruct (tikv_lives f s no_table _ He Hd Hu (no_points_series s Hn) ltac:(intros i; constructor) OKa) as (y' & d' & t & E & R & _ & A).
    { intros E. apply app_eq_nil in E as [_ E]. discriminate. }
    pose proof E as E0. rewrite SL in E. apply app_inj_tail in E as [<- <-]. exists t. split; [|split].
    - rewrite R, map_app. reflexivity.
    - assert (G: Forall (fun y => good_table (sh_tab (fst y))) (shelf_lives (f_clock f) (f_ticks f) 0 no_table (L ++ [mkLife cf a]))).
      { apply good_lives; [intros i; constructor|eapply tlives_written, OKa]. }
      rewrite E0 in G. apply Forall_app in G as [_ G]. now apply Forall_cons_iff in G as [G _].
    - exact A. }
  destruct (LV ops OK) as (t & E & _ & _). exists y, (shelf_ops cf d0 ops), t. split; [apply SL|]. split; [rewrite E, map_app; reflexivity|].
  intros sv z bs ch rqs l k Hb Hh HF S O.
  destruct (g_serve tdhandler (shelf_op cf) shelf_parts (fun a t => exists rs, t_live (L ++ [mkLife cf a]) f s = Some (rs, t))
    (fun a => fst (shelf_ops cf d0 a)) (fun a => tlives_ok (f_clock f) (f_ticks f) 0 (-1) (L ++ [mkLife cf a]))) with (sv := sv) (z := z) (bs := bs) (ch := ch) (rqs := rqs) (l := l) (k := k) (ops := ops) (w := t)
    as (rss & r & t' & more & R1 & R2 & (rs & R3) & R4); try assumption.
  - intros a b. apply tlives_prefix.
  - intros a o. now rewrite shelf_ops_snoc.
  - intros a t1 ls pts (rs & E1) OKa. destruct (t_live_snoc cf (OpBatch ls pts) a L f s _ _ E1) as (y1 & rs1 & -> & E2).
    destruct (LV _ OKa) as (t2 & E3 & _). rewrite E2 in E3. unfold trun in E3. cbn [top_prog] in E3. rewrite run_TD in E3.
    destruct (LV a (tlives_prefix _ _ _ _ _ _ _ _ OKa)) as (t3 & E4 & _). rewrite E1 in E4. injection E4 as EY ET. apply app_inj_tail in EY as [-> ->].
    destruct (run tdhandler (db_write_points ls pts) t1) as [[r1 t4]|] eqn:ER; [|discriminate]. injection E3 as EZ <-. rewrite shelf_ops_snoc in EZ. cbn [snd] in EZ.
    apply app_inj_tail in EZ as [_ EZ]. apply app_inj_tail in EZ as [_ <-]. exists t4. split; [reflexivity|]. eexists. rewrite E2. unfold trun. cbn [top_prog]. rewrite run_TD, ER. reflexivity.
  - intros a o. apply shelf_no_panic.
  - intros a t1 hs bs' o q u v (rs & E1) OKa H1 H2 H3 H4. destruct (LV a OKa) as (t3 & E4 & _ & Q). rewrite E1 in E4. injection E4 as _ ->.
    destruct (Q hs bs' o q u v H1 H2 H3 H4) as (r & Q1 & Q2). exists r. split; [|exact Q2]. rewrite <- run_TD. exact Q1.
  - intros a OKa. destruct (LV a OKa) as (_ & _ & G & _). now apply good_parts.
  - now exists (map snd y ++ [snd (shelf_ops cf d0 ops)]).
  - exists rss, r, t', more, rs. unfold trun. split; [rewrite run_TD; exact R1|]. split; [intros P rest; rewrite run_TD; now apply R2|]. split; [exact R3|exact R4].
Qed.

Lemma talk_points f s L cf ops : env_ok f -> empty_dir f -> new_uuids f s -> no_points s ->
  mlives_ok TiKvDry Sled (f_clock f) (f_ticks f) 0 (-1) (L ++ [mkLife cf ops]) ->
  exists y d t, shelf_lives (f_clock f) (f_ticks f) 0 no_table (L ++ [mkLife cf ops]) = y ++ [d] /\
    x_live (L ++ [mkLife cf ops]) f s = Some (map snd (y ++ [d]), t) /\
    forall sv z bs (ch : nat -> choices) rqs l k, bs_contract bs -> (forall k n, hasher_ok (fst (ch k n))) -> Forall2 (brings sv z) rqs l ->
      talk_sane (shelf_op cf) shelf_parts ch z (fst d) l ->
      mlives_ok TiKvDry Sled (f_clock f) (f_ticks f) 0 (-1) (L ++ [mkLife cf (ops ++ all_ops (shelf_op cf) (fst d) l)]) ->
      exists rss r t' more rs, xrun (lift (@TD) (serve sv z bs ch k rqs)) t = Some ((rss, r), t') /\
        (r = Panic -> forall rest, xrun (lift (@TD) (serve sv z bs ch k (rqs ++ rest))) t = Some ((rss, r), t')) /\
        x_live (L ++ [mkLife cf (ops ++ more)]) f s = Some (rs, t') /\
        talk (shelf_op cf) shelf_parts z (fst d) l rss r more.
Proof.
  intros He Hd Hu Hn OK. destruct (shelf_lives_snoc (f_clock f) cf L (f_ticks f) 0 no_table) as (y & d0 & SL).
  assert (LV: forall a, mlives_ok TiKvDry Sled (f_clock f) (f_ticks f) 0 (-1) (L ++ [mkLife cf a]) ->
    exists t, x_live (L ++ [mkLife cf a]) f s = Some (map snd y ++ [snd (shelf_ops cf d0 a)], t) /\
      good_table (sh_tab (fst (shelf_ops cf d0 a))) /\
      forall hs bs o q u v, hasher_ok hs -> bs_contract bs -> Forall lab_ok q -> unmixed hs (shelf_parts (fst (shelf_ops cf d0 a))) q u v ->
      exists r, xrun (t_query hs bs o q u v) t = Some (r, t) /\ comes_to (shelf_parts (fst (shelf_ops cf d0 a))) q u v r).
  { intros a OKa. destruct (points_lives f s no_table _ He Hd Hu (no_points_series s Hn) ltac:(intros i; constructor) OKa) as (y' & d' & t & E & R & A).
    { intros E. apply app_eq_nil in E as [_ E]. discriminate. }
    pose proof E as E0. rewrite SL in E. apply app_inj_tail in E as [<- <-]. exists t. split; [|split].
    - rewrite R, map_app. reflexivity.
    - assert (G: Forall (fun y => good_table (sh_tab (fst y))) (shelf_lives (f_clock f) (f_ticks f) 0 no_table (L ++ [mkLife cf a]))).
      { apply good_lives; [intros i; constructor|eapply mlives_written, OKa]. }
      rewrite E0 in G. apply Forall_app in G as [_ G]. now apply Forall_cons_iff in G as [G _].
    - exact A. }
  destruct (LV ops OK) as (t & E & _ & _). exists y, (shelf_ops cf d0 ops), t. split; [apply SL|]. split; [rewrite E, map_app; reflexivity|].
  intros sv z bs ch rqs l k Hb Hh HF S O.
  destruct (g_serve xdhandler (shelf_op cf) shelf_parts (fun a t => exists rs, x_live (L ++ [mkLife cf a]) f s = Some (rs, t))
    (fun a => fst (shelf_ops cf d0 a)) (fun a => mlives_ok TiKvDry Sled (f_clock f) (f_ticks f) 0 (-1) (L ++ [mkLife cf a]))) with (sv := sv) (z := z) (bs := bs) (ch := ch) (rqs := rqs) (l := l) (k := k) (ops := ops) (w := t)
    as (rss & r & t' & more & R1 & R2 & (rs & R3) & R4); try assumption.
  - intros a b. apply mlives_prefix.
  - intros a o. now rewrite shelf_ops_snoc.
  - intros a t1 ls pts (rs & E1) OKa. destruct (x_live_snoc cf (OpBatch ls pts) a L f s _ _ E1) as (y1 & rs1 & -> & E2).
    destruct (LV _ OKa) as (t2 & E3 & _). rewrite E2 in E3. unfold xrun in E3. cbn [xop_prog] in E3. rewrite xrun_TD in E3.
    destruct (LV a (mlives_prefix _ _ _ _ _ _ _ _ _ _ OKa)) as (t3 & E4 & _). rewrite E1 in E4. injection E4 as EY ET. apply app_inj_tail in EY as [-> ->].
    destruct (run xdhandler (db_write_points ls pts) t1) as [[r1 t4]|] eqn:ER; [|discriminate]. injection E3 as EZ <-. rewrite shelf_ops_snoc in EZ. cbn [snd] in EZ.
    apply app_inj_tail in EZ as [_ EZ]. apply app_inj_tail in EZ as [_ <-]. exists t4. split; [reflexivity|]. eexists. rewrite E2. unfold xrun. cbn [xop_prog]. rewrite xrun_TD, ER. reflexivity.
  - intros a o. apply shelf_no_panic.
  - intros a t1 hs bs' o q u v (rs & E1) OKa H1 H2 H3 H4. destruct (LV a OKa) as (t3 & E4 & _ & Q). rewrite E1 in E4. injection E4 as _ ->.
    destruct (Q hs bs' o q u v H1 H2 H3 H4) as (r & Q1 & Q2). exists r. split; [|exact Q2]. rewrite <- xrun_TD. exact Q1.
  - intros a OKa. destruct (LV a OKa) as (_ & _ & G & _). now apply good_parts.
  - now exists (map snd y ++ [snd (shelf_ops cf d0 ops)]).
  - exists rss, r, t', more, rs. unfold xrun. split; [rewrite xrun_TD; exact R1|]. split; [intros P rest; rewrite xrun_TD; now apply R2|]. split; [exact R3|exact R4].
Qed.

Lemma begun_snoc clock cf L : forall tick n, exists y start, forall ops, begun clock tick n (L ++ [mkLife cf ops]) = y ++ [(start, mkLife cf ops)].
Proof.
  induction L as [|x L IH]; intros tick n; cbn [app begun lf_cf lf_ops].
  - exists [], (clock (tick + n)%nat). reflexivity.
  - destruct (IH (S (tick + n)) (n + S (swaps (lf_ops x)))%nat) as (y & d0 & E). exists ((clock (tick + n)%nat, x) :: y), d0. intros ops. now rewrite E.
Qed.
Lemma mlives_last st ix clock cf ops L y start : forall tick n last, mlives_ok st ix clock tick n last (L ++ [mkLife cf ops]) -> begun clock tick n (L ++ [mkLife cf ops]) = y ++ [(start, mkLife cf ops)] ->
  ops_ok cf start ops.
Proof.
  intros tick n last H E. apply mlives_ops in H. rewrite E in H. apply Forall_app in H as [_ H]. apply Forall_cons_iff in H as [H _]. exact H.
Qed.
Lemma talk_series f s L cf ops : env_ok f -> empty_dir f -> new_uuids f s ->
  mlives_ok Sled TiKvDry (f_clock f) (f_ticks f) 0 (-1) (L ++ [mkLife cf ops]) ->
  exists y start t, begun (f_clock f) (f_ticks f) 0 (L ++ [mkLife cf ops]) = y ++ [(start, mkLife cf ops)] /\
    x_live (L ++ [mkLife cf ops]) f s = Some (map (fun z => outcomes (lf_cf (snd z)) (fst z) (lf_ops (snd z))) (y ++ [(start, mkLife cf ops)]), t) /\
    forall sv z bs (ch : nat -> choices) rqs l k, bs_contract bs -> (forall k n, hasher_ok (fst (ch k n))) -> Forall2 (brings sv z) rqs l ->
      talk_sane (history_step cf start) (parts cf start) ch z ops l ->
      let all := ops ++ all_ops (history_step cf start) ops l in
      mlives_ok Sled TiKvDry (f_clock f) (f_ticks f) 0 (-1) (L ++ [mkLife cf all]) -> timely (written all) ->
      exists rss r t' more rs, xrun (lift (@TD) (serve sv z bs ch k rqs)) t = Some ((rss, r), t') /\
        (r = Panic -> forall rest, xrun (lift (@TD) (serve sv z bs ch k (rqs ++ rest))) t = Some ((rss, r), t')) /\
        x_live (L ++ [mkLife cf (ops ++ more)]) f s = Some (rs, t') /\
        talk (history_step cf start) (parts cf start) z ops l rss r more.
Proof.
  intros He Hd Hu OK. destruct (begun_snoc (f_clock f) cf L (f_ticks f) 0) as (y & start & SL).
  assert (LV: forall a, mlives_ok Sled TiKvDry (f_clock f) (f_ticks f) 0 (-1) (L ++ [mkLife cf a]) ->
    exists t, x_live (L ++ [mkLife cf a]) f s = Some (map done y ++ [outcomes cf start a], t) /\
      ops_ok cf start a /\
      forall hs bs o q u v, timely (written a) -> hasher_ok hs -> bs_contract bs -> Forall lab_ok q -> unmixed hs (parts cf start a) q u v ->
      exists r, xrun (t_query hs bs o q u v) t = Some (r, t) /\ comes_to (parts cf start a) q u v r).
  { intros a OKa. destruct (index_lives f s _ He Hd Hu OKa) as (y' & d' & t & E & R & A).
    { intros E. apply app_eq_nil in E as [_ E]. discriminate. }
    pose proof (mlives_last _ _ _ _ _ _ _ _ _ _ _ OKa (SL a)) as B.
    rewrite SL in E. apply app_inj_tail in E as [<- <-]. exists t. split; [|split].
    - rewrite R, map_app. reflexivity.
    - exact B.
    - exact A. }
  destruct (LV ops OK) as (t & E & _ & _). exists y, start, t. split; [apply SL|]. split; [rewrite E, map_app; reflexivity|].
  intros sv z bs ch rqs l k Hb Hh HF S all O TI.
  destruct (g_serve xdhandler (history_step cf start) (parts cf start) (fun a t => exists rs, x_live (L ++ [mkLife cf a]) f s = Some (rs, t))
    (fun a => a) (fun a => mlives_ok Sled TiKvDry (f_clock f) (f_ticks f) 0 (-1) (L ++ [mkLife cf a]) /\ timely (written a))) with (sv := sv) (z := z) (bs := bs) (ch := ch) (rqs := rqs) (l := l) (k := k) (ops := ops) (w := t)
    as (rss & r & t' & more & R1 & R2 & (rs & R3) & R4); try assumption.
  - intros a b [H1 H2]. split; [eapply mlives_prefix, H1|]. rewrite written_app in H2. eapply timely_prefix, H2.
  - reflexivity.
  - intros a t1 ls pts (rs & E1) [OKa _]. destruct (x_live_snoc cf (OpBatch ls pts) a L f s _ _ E1) as (y1 & rs1 & -> & E2).
    destruct (LV _ OKa) as (t2 & E3 & _). rewrite E2 in E3. unfold xrun in E3. cbn [xop_prog] in E3. rewrite xrun_TD in E3.
    destruct (LV a (mlives_prefix _ _ _ _ _ _ _ _ _ _ OKa)) as (t3 & E4 & _). rewrite E1 in E4. injection E4 as EY ET. apply app_inj_tail in EY as [-> ->].
    destruct (run xdhandler (db_write_points ls pts) t1) as [[r1 t4]|] eqn:ER; [|discriminate]. injection E3 as EZ <-. rewrite outcomes_app in EZ.
    apply app_inj_tail in EZ as [_ EZ]. cbn [outcomes] in EZ. apply app_inj_tail in EZ as [_ ->]. exists t4. split; [reflexivity|]. eexists. rewrite E2. unfold xrun. cbn [xop_prog]. rewrite xrun_TD, ER. reflexivity.
  - intros a o. unfold history_step, outcome. cbn [snd]. destruct o; [destruct (in_windowb _ _)|destruct (existsb _ _)|]; discriminate.
  - intros a t1 hs bs' o q u v (rs & E1) [OKa TA] H1 H2 H3 H4. destruct (LV a OKa) as (t3 & E4 & _ & Q). rewrite E1 in E4. injection E4 as _ ->.
    destruct (Q hs bs' o q u v TA H1 H2 H3 H4) as (r & Q1 & Q2). exists r. split; [|exact Q2]. rewrite <- xrun_TD. exact Q1.
  - intros a [OKa _] c ls pts p H1 H2 H3. destruct (LV a OKa) as (_ & _ & B & _).
    destruct (parts_seg cf a start [] c H1) as (a1 & seg & b & E1 & Ec & _). cbn [app] in E1.
    assert (Hs: Forall ireq_ok seg) by (eapply seg_ok; [exact E1|apply B]).
    rewrite Ec in H2. destruct (content_sound _ _ Hs _ _ H2) as [_ Q]. destruct (Q p H3) as (ls' & HI & _). rewrite Forall_forall in Hs. apply (Hs _ HI).
  - now exists (map done y ++ [outcomes cf start ops]).
  - split; assumption.
  - exists rss, r, t', more, rs. unfold xrun. split; [rewrite xrun_TD; exact R1|]. split; [intros P rest; rewrite xrun_TD; now apply R2|]. split; [exact R3|exact R4].
Qed.

(** ** the first window over an empty TiKV *)
Lemma talk_first cf start : cf_st cf = TiKvDry -> let d0 := open_shelf cf start no_table in
  forall l, all_ops (shelf_op cf) d0 l = all_ops (history_step cf start) [] l /\
    (forall ch z, talk_sane (shelf_op cf) shelf_parts ch z d0 l <-> talk_sane (history_step cf start) (parts cf start) ch z [] l) /\
    forall z rss r ops, talk (shelf_op cf) shelf_parts z d0 l rss r ops <-> talk (history_step cf start) (parts cf start) z [] l rss r ops.
Proof.
  intros T d0 l. set (R := fun d ops => d = fst (shelf_ops cf d0 ops) /\ swaps ops = 0%nat).
  assert (RC: forall a b, R a b -> shelf_parts a = parts cf start b).
  { intros a b [-> S]. apply (one_life cf start b T S). }
  assert (SW: forall ops x, swaps ops = 0%nat -> swaps (ops ++ [batch_of x]) = 0%nat).
  { induction ops as [|o ops IH]; intros x S; [reflexivity|]. cbn [app swaps] in *. destruct o; try discriminate; now apply IH. }
  assert (RS: forall a b s, R a b -> R (fst (shelf_op cf a (batch_of s))) (fst (history_step cf start b (batch_of s))) /\
    snd (shelf_op cf a (batch_of s)) = snd (history_step cf start b (batch_of s))).
  { intros a b s [-> S]. pose proof (shelf_ops_snoc cf (batch_of s) b d0) as E. cbn zeta in E. split.
    - split; [cbn [history_step fst]; now rewrite E|apply SW, S].
    - destruct (one_life cf start _ T (SW b s S)) as [_ P]. destruct (one_life cf start _ T S) as [_ Q]. fold d0 in P, Q. rewrite E in P. cbn [snd] in P. rewrite outcomes_app, Q in P.
      apply app_inj_tail in P as [_ P]. exact P. }
  assert (R0: R d0 []) by (split; reflexivity).
  split; [exact (same_all _ _ R RS l _ _ R0)|]. split; [intros ch z; exact (same_sane _ _ _ _ R RC RS ch z l _ _ R0)|].
  intros z rss r ops. exact (same_talk _ _ _ _ R RC RS z l _ _ rss r ops R0).
Qed.
Lemma cli_first dbg cwd f s z bs (ch : nat -> choices) : let cf := cli_config dbg cwd in let start := f_clock f (f_ticks f) in
  env_ok f -> empty_dir f -> new_uuids f s -> no_points s -> ascii cwd -> bs_contract bs -> (forall k n, hasher_ok (fst (ch k n))) ->
  forall rqs l, Forall2 (brings cli_server z) rqs l ->
  talk_sane (history_step cf start) (parts cf start) ch z [] l -> ops_ok cf start (all_ops (history_step cf start) [] l) ->
  exists rss r t more, tikv_cli dbg cwd f s z bs ch rqs = Some ((rss, r), t) /\ talk (history_step cf start) (parts cf start) z [] l rss r more /\
    (r = Panic -> forall rest, tikv_cli dbg cwd f s z bs ch (rqs ++ rest) = Some ((rss, r), t)).
Proof.
  intros cf start He Hd Hu Hn Ha Hb Hh rqs l HF S O. destruct (talk_first cf start eq_refl l) as (F1 & F2 & F3).
  assert (Hc: -1 < start) by (destruct He as (_ & _ & B & _); specialize (B (f_ticks f)); unfold u64 in B; fold start in B; lia).
  assert (OK: forall a, ops_ok cf start a -> tlives_ok (f_clock f) (f_ticks f) 0 (-1) ([] ++ [mkLife cf a])).
  { intros a Ho. cbn [app tlives_ok lf_cf lf_ops]. rewrite Nat.add_0_r. fold start. repeat (split; [first [reflexivity|assumption]|]). exact I. }
  destruct (talk_tikv f s [] cf [] He Hd Hu Hn) as (y & d & t & E1 & E2 & A).
  { apply OK. change (all_ops (history_step cf start) [] l) with ([] ++ all_ops (history_step cf start) [] l) in O. now apply ops_ok_prefix in O. }
  cbn [app shelf_lives lf_cf lf_ops shelf_ops] in E1. rewrite Nat.add_0_r in E1. fold start in E1. apply (app_inj_tail []) in E1 as [<- <-]. cbn [fst] in A.
  destruct (A cli_server z bs ch rqs l 0%nat Hb Hh HF) as (rss & r & t' & more & rs & A1 & A2 & _ & A3).
  { now apply F2. }
  { rewrite F1. apply OK, O. }
  exists rss, r, t', more. unfold tikv_cli. fold cf. cbn [app t_live t_after lf_cf lf_ops] in E2. unfold t_after in E2.
  destruct (t_open cf f s) as [[[] t0]|]; try discriminate. cbn [t_after_from] in E2. assert (t0 = t) as -> by congruence.
  split; [exact A1|]. split; [now apply F3|exact A2].
Qed.
