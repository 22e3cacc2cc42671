(* Proofs about the options. *)
From Coq Require Import ZifyBool ZifyNat String.
From Verif Require Import Rust StringProofs Opts OptsSpec.
Local Notation length := List.length.

Lemma char_digit_dec c d : char_digit 10 c = Some d <-> digit c /\ d = c - 48.
Proof.
  unfold char_digit, digit. destruct ((48 <=? c) && (c <=? 57)) eqn:E1; [|destruct ((97 <=? c) && (c <=? 122)) eqn:E2; [|destruct ((65 <=? c) && (c <=? 90)) eqn:E3]].
  - destruct (c - 48 <? 10) eqn:L; [|lia]. split; [intros [= <-]; lia|intros [_ ->]; reflexivity].
  - destruct (c - 87 <? 10) eqn:L; [lia|]. split; [discriminate|lia].
  - destruct (c - 55 <? 10) eqn:L; [lia|]. split; [discriminate|lia].
  - split; [discriminate|lia].
Qed.
Lemma char_digit_none c : char_digit 10 c = None -> ~ digit c.
Proof. intros E D. assert (char_digit 10 c = Some (c - 48)) as E' by (apply char_digit_dec; auto). congruence. Qed.

Definition from (acc : Z) (s : bytes) : Z := fold_left (fun n c => 10 * n + (c - 48)) s acc.
Lemma from_le s : forall acc, Forall digit s -> 0 <= acc -> acc <= from acc s.
Proof.
  induction s as [|c s IH]; intros acc H Ha; [apply Z.le_refl|]. apply Forall_cons_iff in H as [D H]. unfold digit in D.
  unfold from. cbn [fold_left]. fold (from (10 * acc + (c - 48)) s). specialize (IH (10 * acc + (c - 48)) H). lia.
Qed.
Lemma parse_digits_dec max s : forall acc v, 0 <= acc <= max ->
  (parse_digits 10 max acc s = Some v <-> Forall digit s /\ v = from acc s /\ v <= max).
Proof.
  induction s as [|c s IH]; intros acc v Ha; cbn [parse_digits].
  - split; [intros [= <-]; split; [constructor|]; split; [reflexivity|lia]|]. intros (_ & -> & _). reflexivity.
  - destruct (char_digit 10 c) as [d|] eqn:E.
    + apply char_digit_dec in E as [D ->]. unfold digit in D. destruct (acc * 10 + (c - 48) <=? max) eqn:L.
      * rewrite IH by lia. unfold from. cbn [fold_left]. replace (10 * acc + (c - 48)) with (acc * 10 + (c - 48)) by lia.
        rewrite Forall_cons_iff. unfold digit. intuition lia.
      * split; [discriminate|]. intros (F & -> & Hv). apply Forall_cons_iff in F as [_ F]. exfalso.
        unfold from in Hv. cbn [fold_left] in Hv. fold (from (10 * acc + (c - 48)) s) in Hv. pose proof (from_le s (10 * acc + (c - 48)) F). lia.
    + split; [discriminate|]. intros (F & _). apply Forall_cons_iff in F as [D _]. destruct (char_digit_none _ E D).
Qed.
Lemma parse_neg_dec min s : forall acc v, 0 <= acc <= - min ->
  (parse_neg_digits 10 min (- acc) s = Some v <-> Forall digit s /\ v = - from acc s /\ min <= v).
Proof.
  induction s as [|c s IH]; intros acc v Ha; cbn [parse_neg_digits].
  - split; [intros [= <-]; split; [constructor|]; split; [reflexivity|lia]|]. intros (_ & -> & _). reflexivity.
  - destruct (char_digit 10 c) as [d|] eqn:E.
    + apply char_digit_dec in E as [D ->]. unfold digit in D. replace (- acc * 10 - (c - 48)) with (- (acc * 10 + (c - 48))) by lia.
      destruct (min <=? - (acc * 10 + (c - 48))) eqn:L.
      * rewrite IH by lia. unfold from. cbn [fold_left]. replace (10 * acc + (c - 48)) with (acc * 10 + (c - 48)) by lia.
        rewrite Forall_cons_iff. unfold digit. intuition lia.
      * split; [discriminate|]. intros (F & -> & Hv). apply Forall_cons_iff in F as [_ F]. exfalso.
        unfold from in Hv. cbn [fold_left] in Hv. fold (from (10 * acc + (c - 48)) s) in Hv. pose proof (from_le s (10 * acc + (c - 48)) F). lia.
    + split; [discriminate|]. intros (F & _). apply Forall_cons_iff in F as [D _]. destruct (char_digit_none _ E D).
Qed.

Lemma plus_not_digits t : ~ digits (43 :: t).
Proof. intros [_ H]. apply Forall_cons_iff in H as [D _]. unfold digit in D. lia. Qed.
Lemma minus_not_digits t : ~ digits (45 :: t).
Proof. intros [_ H]. apply Forall_cons_iff in H as [D _]. unfold digit in D. lia. Qed.
Lemma unsigned_plain c s z : c <> 43 -> (unsigned (c :: s) z <-> digits (c :: s) /\ z = number (c :: s)).
Proof.
  intros Hc. split.
  - intros (t & [<-|E] & D & ->); [auto|congruence].
  - intros [D ->]. exists (c :: s). auto.
Qed.
Lemma unsigned_plus s z : unsigned (43 :: s) z <-> digits s /\ z = number s.
Proof.
  split.
  - intros (t & [<-|E] & D & ->); [destruct (plus_not_digits _ D)|]. assert (t = s) as -> by congruence. auto.
  - intros [D ->]. exists s. auto.
Qed.
Lemma unsigned_nonneg s z : unsigned s z -> 0 <= z.
Proof. intros (t & _ & [_ D] & ->). exact (from_le t 0 D ltac:(lia)). Qed.

Lemma digits_or s max v : 0 <= max -> s <> [] -> (parse_digits 10 max 0 s = Some v <-> (digits s /\ v = number s) /\ v <= max).
Proof. intros Hm N. rewrite (parse_digits_dec max s 0 v) by lia. unfold digits, number, from. intuition congruence. Qed.
Theorem parse_u_dec n s v : 0 < n -> (parse_u n 10 s = Some v <-> unsigned s v /\ v < 2 ^ n).
Proof.
  intros Hn. assert (0 < 2 ^ n) by (apply Z.pow_pos_nonneg; lia). unfold parse_u. destruct s as [|c s].
  - split; [discriminate|]. intros [(t & [<-|E] & [N _] & _) _]; congruence.
  - destruct (c =? 43) eqn:E.
    + assert (c = 43) as -> by lia. rewrite unsigned_plus. destruct s as [|c' s].
      * split; [discriminate|]. intros [[[N _] _] _]. congruence.
      * rewrite digits_or by (try lia; discriminate). intuition lia.
    + rewrite unsigned_plain by lia. rewrite digits_or by (try lia; discriminate). intuition lia.
Qed.
Theorem parse_i_dec n s v : 0 < n -> (parse_i n 10 s = Some v <-> signed s v /\ - 2 ^ (n - 1) <= v < 2 ^ (n - 1)).
Proof.
  intros Hn. assert (0 < 2 ^ (n - 1)) by (apply Z.pow_pos_nonneg; lia). unfold parse_i, signed.
  assert (NM: forall s v, (exists t, s = 45 :: t /\ digits t /\ v = - number t) -> hd 0 s = 45) by (intros s0 v0 (t & -> & _); reflexivity).
  destruct s as [|c s].
  - split; [discriminate|]. intros [[(t & [<-|E] & [N _] & _)|X] _]; [congruence|congruence|]. apply NM in X. discriminate.
  - destruct (c =? 43) eqn:E; [|destruct (c =? 45) eqn:E2].
    + assert (c = 43) as -> by lia. rewrite unsigned_plus.
      assert (X: ~ exists t, 43 :: s = 45 :: t /\ digits t /\ v = - number t) by (intros Y; apply NM in Y; discriminate).
      destruct s as [|c' s].
      * split; [discriminate|]. intros [[[[N _] _]|Y] _]; [congruence|tauto].
      * rewrite digits_or by (try lia; discriminate). split.
        -- intros [[D ->] L]. pose proof (from_le (c' :: s) 0 (proj2 D) ltac:(lia)). unfold number, from in *. split; [auto|lia].
        -- intros [[D|Y] L]; [split; [exact D|lia]|tauto].
    + assert (c = 45) as -> by lia.
      assert (X: ~ unsigned (45 :: s) v) by (rewrite unsigned_plain by lia; intros [D _]; exact (minus_not_digits _ D)).
      destruct s as [|c' s].
      * split; [discriminate|]. intros [[Y|(t & E3 & [N _] & _)] _]; [tauto|congruence].
      * change 0 with (- 0) at 1. rewrite (parse_neg_dec (- 2 ^ (n - 1)) (c' :: s) 0 v) by lia. split.
        -- intros (F & -> & L). pose proof (from_le (c' :: s) 0 F ltac:(lia)). split; [|lia].
           right. exists (c' :: s). split; [reflexivity|]. split; [split; [discriminate|exact F]|reflexivity].
        -- intros [[Y|(t & E3 & [N F] & ->)] L]; [tauto|]. assert (t = c' :: s) as -> by congruence. split; [exact F|]. split; [reflexivity|lia].
    + rewrite unsigned_plain by lia. rewrite digits_or by (try lia; discriminate).
      assert (X: ~ exists t, c :: s = 45 :: t /\ digits t /\ v = - number t) by (intros Y; apply NM in Y; cbn in Y; lia).
      split.
      * intros [[D ->] L]. pose proof (from_le (c :: s) 0 (proj2 D) ltac:(lia)). unfold number, from in *. split; [auto|lia].
      * intros [[D|Y] L]; [split; [exact D|lia]|tauto].
Qed.

Theorem server_opts_iff a so : server_opts_of a = Ok so <->
  unsigned (a_workers a) (so_workers so) /\ so_workers so < 2 ^ 64 /\
  signed (a_port a) (so_port so) /\ 1024 <= so_port so <= 65535 /\
  so_write_path so = a_write_path a /\ so_read_path so = a_read_path a.
Proof.
  unfold server_opts_of. pose proof (parse_u_dec 64 (a_workers a)) as PU. pose proof (parse_i_dec 32 (a_port a)) as PI.
  destruct so as [port wp rp workers]. cbn [so_workers so_port so_write_path so_read_path].
  destruct (parse_u 64 10 (a_workers a)) as [wn|].
  - destruct (parse_i 32 10 (a_port a)) as [pn|].
    + destruct ((65535 <? pn) || (pn <? 1024)) eqn:R.
      * split; [discriminate|]. intros (_ & _ & H & L & _). assert (E: Some pn = Some port) by (apply PI; [lia|split; [exact H|cbn; lia]]).
        assert (pn = port) as -> by congruence. lia.
      * split.
        -- intros E. assert (pn = port /\ a_write_path a = wp /\ a_read_path a = rp /\ wn = workers) as (-> & <- & <- & ->) by (repeat split; congruence).
           destruct (proj1 (PU workers ltac:(lia)) eq_refl). destruct (proj1 (PI port ltac:(lia)) eq_refl). do 3 (split; [assumption|]). split; [lia|auto].
        -- intros (H1 & H2 & H3 & H4 & -> & ->). assert (E: Some pn = Some port) by (apply PI; [lia|split; [exact H3|cbn; lia]]).
           assert (E': Some wn = Some workers) by (apply PU; [lia|split; assumption]). congruence.
    + split; [discriminate|]. intros (_ & _ & H & L & _). assert (E: None = Some port) by (apply PI; [lia|split; [exact H|cbn; lia]]). discriminate.
  - split; [discriminate|]. intros (H & L & _). assert (E: None = Some workers) by (apply PU; [lia|split; assumption]). discriminate.
Qed.
Theorem db_opts_iff a o : db_opts_of a = Ok o <->
  unsigned (a_chunk_size a) (o_chunk_secs o) /\ o_chunk_secs o < 2 ^ 64 /\
  o_storage o = a_storage a /\ o_indexer o = a_indexer a /\ o_base_dir o = a_dir a /\ o_tikv o = a_tikv a.
Proof.
  unfold db_opts_of. pose proof (parse_u_dec 64 (a_chunk_size a)) as PU. destruct o as [st ix dir secs tk]. cbn [o_storage o_indexer o_base_dir o_chunk_secs o_tikv].
  destruct (parse_u 64 10 (a_chunk_size a)) as [n|].
  - split.
    + intros E. assert (n = secs) as -> by congruence. destruct (proj1 (PU secs ltac:(lia)) eq_refl). do 2 (split; [assumption|]). repeat split; congruence.
    + intros (H & L & -> & -> & -> & ->). assert (Some n = Some secs) by (apply PU; [lia|split; assumption]). congruence.
  - split; [discriminate|]. intros (H & L & _). assert (None = Some secs) by (apply PU; [lia|split; assumption]). discriminate.
Qed.

Lemma wants_spec x y : bytes_eqb x (s2b "tikv") || bytes_eqb y (s2b "tikv") = true <-> y = s2b "tikv" \/ x = s2b "tikv".
Proof. rewrite orb_true_iff, !bytes_eqb_spec. tauto. Qed.
Lemma sled_tikv : s2b "sled" <> s2b "tikv".
Proof. discriminate. Qed.

Theorem startup_starts file a st ix o so : startup file a = Starts st ix o so <->
  db_opts_of a = Ok o /\ server_opts_of a = Ok so /\
  exists dry, kind_for (a_storage a) dry st /\ kind_for (a_indexer a) dry ix /\ (wants_tikv a -> dry_run file a dry).
Proof.
  unfold startup, wants_tikv, dry_run, kind_for. pose proof (db_opts_iff a) as DI.
  destruct (db_opts_of a) as [o'|e|] eqn:ED; [|split; [discriminate|intros (E & _); discriminate]|split; [discriminate|intros (E & _); discriminate]].
  destruct (server_opts_of a) as [so'|e|] eqn:ES; [|split; [discriminate|intros (_ & E & _); discriminate]|split; [discriminate|intros (_ & E & _); discriminate]].
  destruct (proj1 (DI o') eq_refl) as (_ & _ & -> & -> & _ & ->).
  assert (G: forall dry, match (if bytes_eqb (a_storage a) (s2b "tikv") then Some (KTiKv dry) else if bytes_eqb (a_storage a) (s2b "sled") then Some KSled else None) with
     | None => Exits 1
     | Some st => match (if bytes_eqb (a_indexer a) (s2b "tikv") then Some (KTiKv dry) else if bytes_eqb (a_indexer a) (s2b "sled") then Some KSled else None) with
                  | None => Exits 1 | Some ix => Starts st ix o' so' end end = Starts st ix o so <->
     Ok o' = Ok o /\ Ok so' = Ok so /\
     ((a_storage a = s2b "sled" /\ st = KSled) \/ (a_storage a = s2b "tikv" /\ st = KTiKv dry)) /\
     ((a_indexer a = s2b "sled" /\ ix = KSled) \/ (a_indexer a = s2b "tikv" /\ ix = KTiKv dry))).
  { intros dry. pose proof (bytes_eqb_spec (a_storage a) (s2b "tikv")) as S1. pose proof (bytes_eqb_spec (a_storage a) (s2b "sled")) as S2.
    pose proof (bytes_eqb_spec (a_indexer a) (s2b "tikv")) as I1. pose proof (bytes_eqb_spec (a_indexer a) (s2b "sled")) as I2. pose proof sled_tikv as ST.
    destruct (bytes_eqb (a_storage a) (s2b "tikv")), (bytes_eqb (a_storage a) (s2b "sled")), (bytes_eqb (a_indexer a) (s2b "tikv")), (bytes_eqb (a_indexer a) (s2b "sled"));
      repeat match goal with
      | H : true = true <-> ?P |- _ => pose proof (proj1 H eq_refl); clear H
      | H : false = true <-> ?P |- _ => assert (~ P) by (intros K; apply (proj2 H) in K; discriminate); clear H
      end; (split; [intros E; first [discriminate E | injection E as <- <- <- <-; intuition congruence] | intros (E1 & E2 & [[A B]|[A B]] & [[C D]|[C D]]); try congruence]). }
  destruct (a_tikv a) as [path|] eqn:ET.
  - destruct (bytes_eqb (a_indexer a) (s2b "tikv") || bytes_eqb (a_storage a) (s2b "tikv")) eqn:W.
    + apply wants_spec in W. destruct (file path) as [dry|] eqn:F.
      * rewrite (G dry). split.
        -- intros (A & B & C & D). split; [exact A|]. split; [exact B|]. exists dry. tauto.
        -- intros (A & B & d & C & D & E). specialize (E W). assert (d = dry) as -> by congruence. tauto.
      * split; [discriminate|]. intros (_ & _ & d & _ & _ & E). specialize (E W). discriminate.
    + assert (NW: ~ (a_storage a = s2b "tikv" \/ a_indexer a = s2b "tikv")) by (rewrite <- wants_spec, W; discriminate).
      rewrite (G true). split.
      * intros (A & B & C & D). split; [exact A|]. split; [exact B|]. exists true. tauto.
      * intros (A & B & d & C & D & E). tauto.
  - rewrite (G true). split.
    + intros (A & B & C & D). split; [exact A|]. split; [exact B|]. exists true. tauto.
    + intros (A & B & d & C & D & E). split; [exact A|]. split; [exact B|].
      assert (K: a_storage a = s2b "tikv" \/ a_indexer a = s2b "tikv" -> d = true) by exact E. clear E.
      split; [destruct C as [C|[C1 C2]]; [left; exact C|right; rewrite (K (or_introl C1)) in C2; auto]
             |destruct D as [D|[D1 D2]]; [left; exact D|right; rewrite (K (or_intror D1)) in D2; auto]].
Qed.
(* the other ways to end *)
Theorem startup_exits file a c : startup file a = Exits c ->
  c = 1 /\ (exists o so, db_opts_of a = Ok o /\ server_opts_of a = Ok so) /\ ~ (backend_name (a_storage a) /\ backend_name (a_indexer a)).
Proof.
  unfold startup. pose proof (db_opts_iff a) as DI. destruct (db_opts_of a) as [o'|e|] eqn:ED; try discriminate.
  destruct (server_opts_of a) as [so'|e|] eqn:ES; try discriminate. destruct (proj1 (DI o') eq_refl) as (_ & _ & -> & -> & _ & _).
  intros H. assert (G: c = 1 /\ ~ (backend_name (a_storage a) /\ backend_name (a_indexer a))).
  { assert (G: forall dry, match (if bytes_eqb (a_storage a) (s2b "tikv") then Some (KTiKv dry) else if bytes_eqb (a_storage a) (s2b "sled") then Some KSled else None) with
     | None => Exits 1
     | Some st => match (if bytes_eqb (a_indexer a) (s2b "tikv") then Some (KTiKv dry) else if bytes_eqb (a_indexer a) (s2b "sled") then Some KSled else None) with
                  | None => Exits 1 | Some ix => Starts st ix o' so' end end = Exits c -> c = 1 /\ ~ (backend_name (a_storage a) /\ backend_name (a_indexer a))).
    { intros dry E. unfold backend_name.
      pose proof (bytes_eqb_spec (a_storage a) (s2b "tikv")) as S1. pose proof (bytes_eqb_spec (a_storage a) (s2b "sled")) as S2.
      pose proof (bytes_eqb_spec (a_indexer a) (s2b "tikv")) as I1. pose proof (bytes_eqb_spec (a_indexer a) (s2b "sled")) as I2.
      destruct (bytes_eqb (a_storage a) (s2b "tikv")), (bytes_eqb (a_storage a) (s2b "sled")), (bytes_eqb (a_indexer a) (s2b "tikv")), (bytes_eqb (a_indexer a) (s2b "sled"));
        try discriminate E; (split; [congruence|intros [A B]]);
        repeat match goal with H : false = true <-> ?P |- _ => assert (~ P) by (intros K; apply (proj2 H) in K; discriminate); clear H end; tauto. }
    destruct (o_tikv o') as [path|]; [|exact (G true H)]. destruct (_ || _); [|exact (G true H)]. destruct (file path) as [dry|]; [exact (G dry H)|discriminate]. }
  destruct G as [G1 G2]. split; [exact G1|]. split; [exists o', so'; auto|exact G2].
Qed.

Theorem chunk_millis_exact o : 0 <= o_chunk_secs o -> (chunk_millis o = o_chunk_secs o * 1000 <-> o_chunk_secs o * 1000 < 2 ^ 64).
Proof.
  intros H. unfold chunk_millis, wrapu. split.
  - intros E. pose proof (Z.mod_pos_bound (o_chunk_secs o * 1000) (2 ^ 64)). lia.
  - intros L. apply Z.mod_small. lia.
Qed.

Theorem server_opts_refusals a :
  (exists so, server_opts_of a = Ok so) \/
  (server_opts_of a = Err OptionErr /\
     (exists w, unsigned (a_workers a) w /\ w < 2 ^ 64) /\
     exists p, signed (a_port a) p /\ - 2 ^ 31 <= p < 2 ^ 31 /\ ~ 1024 <= p <= 65535) \/
  (server_opts_of a = Err ParseErr /\
     ((forall w, unsigned (a_workers a) w -> 2 ^ 64 <= w) \/
      (forall p, signed (a_port a) p -> ~ - 2 ^ 31 <= p < 2 ^ 31))).
Proof.
  unfold server_opts_of. pose proof (parse_u_dec 64 (a_workers a)) as PU. pose proof (parse_i_dec 32 (a_port a)) as PI.
  destruct (parse_u 64 10 (a_workers a)) as [wn|].
  - destruct (parse_i 32 10 (a_port a)) as [pn|].
    + destruct ((65535 <? pn) || (pn <? 1024)) eqn:R; [|left; eauto]. right. left. split; [reflexivity|].
      destruct (proj1 (PI pn ltac:(lia)) eq_refl) as [H1 H2]. destruct (proj1 (PU wn ltac:(lia)) eq_refl) as [H3 H4]. split; [exists wn; auto|].
      exists pn. split; [exact H1|]. cbn in H2. lia.
    + right. right. split; [reflexivity|]. right. intros p H L. assert (None = Some p) by (apply PI; [lia|split; [exact H|cbn; lia]]). discriminate.
  - right. right. split; [reflexivity|]. left. intros w H.
    destruct (Z.le_gt_cases (2 ^ 64) w) as [|L]; [assumption|]. assert (None = Some w) by (apply PU; [lia|split; [exact H|lia]]). discriminate.
Qed.
Theorem startup_panics file a :
  startup file a = Panics <->
  (forall z, unsigned (a_chunk_size a) z -> 2 ^ 64 <= z) \/
  (forall so, server_opts_of a <> Ok so) \/
  (wants_tikv a /\ exists path, a_tikv a = Some path /\ file path = None).
Proof.
  unfold startup, wants_tikv. pose proof (db_opts_iff a) as DI. pose proof (parse_u_dec 64 (a_chunk_size a)) as PU.
  assert (ND: (forall o, db_opts_of a <> Ok o) -> forall z, unsigned (a_chunk_size a) z -> 2 ^ 64 <= z).
  { unfold db_opts_of. destruct (parse_u 64 10 (a_chunk_size a)) as [n|]; [intros H; edestruct H; reflexivity|]. intros _ z Hz.
    destruct (Z.le_gt_cases (2 ^ 64) z) as [|L]; [assumption|]. assert (None = Some z) by (apply PU; [lia|split; [exact Hz|lia]]). discriminate. }
  destruct (db_opts_of a) as [o'|e|] eqn:ED; [|split; [left; apply ND; intros; discriminate|reflexivity]|split; [left; apply ND; intros; discriminate|reflexivity]].
  destruct (proj1 (DI o') eq_refl) as (U & UL & -> & -> & _ & ->).
  destruct (server_opts_of a) as [so'|e|] eqn:ES; [|split; [right; left; intros; discriminate|reflexivity]|split; [right; left; intros; discriminate|reflexivity]].
  assert (Hn: ~ ((forall z, unsigned (a_chunk_size a) z -> 2 ^ 64 <= z) \/ (forall so, Ok so' <> Ok so))).
  { intros [X|X]; [specialize (X _ U); lia|exact (X so' eq_refl)]. }
  assert (G: forall dry, match (if bytes_eqb (a_storage a) (s2b "tikv") then Some (KTiKv dry) else if bytes_eqb (a_storage a) (s2b "sled") then Some KSled else None) with
     | None => Exits 1
     | Some st => match (if bytes_eqb (a_indexer a) (s2b "tikv") then Some (KTiKv dry) else if bytes_eqb (a_indexer a) (s2b "sled") then Some KSled else None) with
                  | None => Exits 1 | Some ix => Starts st ix o' so' end end <> Panics).
  { intros dry. destruct (bytes_eqb (a_storage a) (s2b "tikv")), (bytes_eqb (a_storage a) (s2b "sled")), (bytes_eqb (a_indexer a) (s2b "tikv")), (bytes_eqb (a_indexer a) (s2b "sled")); discriminate. }
  destruct (a_tikv a) as [path|].
  - destruct (bytes_eqb (a_indexer a) (s2b "tikv") || bytes_eqb (a_storage a) (s2b "tikv")) eqn:W.
    + apply wants_spec in W. destruct (file path) as [dry|] eqn:F.
      * split; [intros E; destruct (G dry E)|]. intros [X|[X|(_ & p & E & F')]]; [tauto|tauto|congruence].
      * split; [intros _|reflexivity]. right. right. split; [exact W|]. exists path. auto.
    + split; [intros E; destruct (G true E)|]. rewrite <- wants_spec, W. intros [X|[X|(X & _)]]; [tauto|tauto|discriminate].
  - split; [intros E; destruct (G true E)|]. intros [X|[X|(_ & p & E & F')]]; [tauto|tauto|discriminate].
Qed.

Theorem db_opts_refusals a :
  (exists o, db_opts_of a = Ok o) \/ (db_opts_of a = Err ParseErr /\ forall z, unsigned (a_chunk_size a) z -> 2 ^ 64 <= z).
Proof.
  unfold db_opts_of. pose proof (parse_u_dec 64 (a_chunk_size a)) as PU. destruct (parse_u 64 10 (a_chunk_size a)) as [n|]; [left; eauto|right]. split; [reflexivity|].
  intros z Hz. destruct (Z.le_gt_cases (2 ^ 64) z) as [|L]; [assumption|]. assert (None = Some z) by (apply PU; [lia|split; [exact Hz|lia]]). discriminate.
Qed.
