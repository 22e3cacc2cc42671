(* Specification vocabulary for a database one of whose two types is a real TiKV and the other one sled. *)
From Verif Require Import Rust Prog Gorilla GorillaSpec Storage StorageSpec Labels IndexSpec Indexer Chunk ChunkSpec
  Utils DirSpec TiKvInit TiKvShared TiKvSpec Db DbSpec ReopenSpec TiKvDb TiKvDbSpec MixDb.

(* ------------------------------------------------------------------ *)
(** * Running *)

Definition xrun {A} (p : prog tcmd A) (t : tworld) : option (A * tworld) := run xhandler p t.
Definition xop_prog (cf : config) (o : dop) : prog tcmd (res unit) :=
  match o with
  | OpPoint ls p => lift (@TD) (db_write_point ls p)
  | OpBatch ls pts => lift (@TD) (db_write_points ls pts)
  | OpSwap start => x_swap cf start
  end.
(* opening the directory with the store s *)
Definition x_open (cf : config) (f : fworld) (s : kv) : option (res unit * tworld) :=
  match xrun (x_db_new cf) (mkT (closed_db f) s) with
  | Some (Ok r, t) => Some (Ok tt, mkT (opened r (d_fs (t_db t))) (t_kv t))
  | Some (Err e, t) => Some (Err e, t)
  | Some (Panic, t) => Some (Panic, t)
  | None => None
  end.
Fixpoint x_after_from (cf : config) (ops : list dop) (t : tworld) : option (list (res unit) * tworld) :=
  match ops with
  | [] => Some ([], t)
  | o :: ops' =>
      match xrun (xop_prog cf o) t with
      | None => None
      | Some (r, t') => match x_after_from cf ops' t' with
                        | None => None
                        | Some (rs, t'') => Some (r :: rs, t'')
                        end
      end
  end.
Definition x_after (cf : config) (f : fworld) (s : kv) (ops : list dop) : option (list (res unit) * tworld) :=
  match x_open cf f s with
  | Some (Ok _, t) => x_after_from cf ops t
  | _ => None
  end.
(* one process after the other; what each answered, and the state in which the last one is.  A process that stops
   leaves its files, among them the sled stores, and the TiKV store. *)
Fixpoint x_live (L : list life) (f : fworld) (s : kv) : option (list (list (res unit)) * tworld) :=
  match L with
  | [] => None
  | x :: L' =>
      match x_after (lf_cf x) f s (lf_ops x) with
      | None => None
      | Some (rs, t) =>
          match L' with
          | [] => Some ([rs], t)
          | _ => match x_live L' (stopped (lf_cf x) (t_db t)) (t_kv t) with
                 | None => None
                 | Some (rss, t') => Some (rs :: rss, t')
                 end
          end
      end
  end.

(* the processes have these two types and the directory is named in ASCII; each process starts after the last window
   of the previous one was opened ([tick]: the clock readings so far, [n]: the chunks there are, [last]: the start of
   the last window) *)
Fixpoint mlives_ok (st ix : backend) (clock : nat -> Z) (tick n : nat) (last : Z) (L : list life) : Prop :=
  match L with
  | [] => True
  | x :: L' =>
      let start := clock (tick + n)%nat in
      cf_st (lf_cf x) = st /\ cf_ix (lf_cf x) = ix /\ ascii (cf_base (lf_cf x)) /\ last < start /\ ops_ok (lf_cf x) start (lf_ops x) /\
      mlives_ok st ix clock (S (tick + n)) (n + S (swaps (lf_ops x))) (last_start start (lf_ops x)) L'
  end.
(* each process with the start of its first window *)
Fixpoint begun (clock : nat -> Z) (tick n : nat) (L : list life) : list (Z * life) :=
  match L with
  | [] => []
  | x :: L' => (clock (tick + n)%nat, x) :: begun clock (S (tick + n)) (n + S (swaps (lf_ops x))) L'
  end.
