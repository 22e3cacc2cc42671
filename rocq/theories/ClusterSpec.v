(* Specification vocabulary: several processes on directories of their own over one TiKV. *)
From Verif Require Import Rust Prog Gorilla GorillaSpec Storage StorageSpec Labels IndexSpec Indexer Chunk ChunkSpec
  Utils DirSpec TiKvInit TiKvShared TiKvSpec Db DbSpec ReopenSpec TiKvDb TiKvDbSpec Cluster.

(* ------------------------------------------------------------------ *)
(** * Running *)

(* a process starts on a directory (the one that had it open is gone), or makes an operation *)
Inductive act := Start (cf : config) | Run (o : dop).
Definition cl_do (i : nat) (a : act) (C : cluster) : option (res unit * cluster) :=
  match nth_error (cl_dbs C) i, a with
  | None, _ => None
  | Some (_, db), Start cf =>
      match t_open cf (d_fs db) (cl_kv C) with
      | Some (r, t) => Some (r, mkCl (upd (cl_dbs C) i (Some cf, t_db t)) (t_kv t))
      | None => None
      end
  | Some (Some cf, _), Run o => run clhandler (at_dir i (top_prog cf o)) C
  | Some (None, _), Run _ => None
  end.
(* one act after the other, each on the directory named *)
Fixpoint cl_run (l : list (nat * act)) (C : cluster) : option (list (res unit) * cluster) :=
  match l with
  | [] => Some ([], C)
  | (i, a) :: l' =>
      match cl_do i a C with
      | None => None
      | Some (r, C') => match cl_run l' C' with
                        | None => None
                        | Some (rs, C'') => Some (r :: rs, C'')
                        end
      end
  end.
(* nothing is running *)
Definition nobody (fs : list fworld) (s : kv) : cluster := mkCl (map (fun f => (None, closed_db f)) fs) s.

(* no uuid is drawn twice, by whomever, and the store has no key that starts with one *)
Definition own_uuids (fs : list fworld) : Prop :=
  forall i j f g m k, nth_error fs i = Some f -> nth_error fs j = Some g -> f_uuid f m = f_uuid g k -> i = j /\ m = k.
Definition unknown (fs : list fworld) (s : kv) : Prop := forall f m r, In f fs -> kv_get s (f_uuid f m ++ r) = None.

(* ------------------------------------------------------------------ *)
(** * What it amounts to *)

(* a directory: the clock of its machine, how often it was read, the number of windows, the start of the last one, and
   the shelf (C64) of the process that has it open; there is one table for all *)
Record seat := mkSeat { se_clock : nat -> Z; se_tick : nat; se_dirs : nat; se_last : Z; se_db : option (config * shelf) }.
Definition seat_of (f : fworld) : seat := mkSeat (f_clock f) (f_ticks f) 0 (-1) None.
Definition with_table (d : shelf) (T : table) : shelf := mkShelf (sh_old d) (sh_cur d) (sh_sets d) T.
Definition next_start (x : seat) : Z := se_clock x (se_tick x + se_dirs x)%nat.
Definition seat_act (x : seat) (T : table) (a : act) : seat * table * res unit :=
  match a, se_db x with
  | Start cf, _ =>
      (mkSeat (se_clock x) (S (se_tick x + se_dirs x)) (S (se_dirs x)) (next_start x) (Some (cf, open_shelf cf (next_start x) T)), T, Ok tt)
  | Run o, Some (cf, d) =>
      let '(d', r) := shelf_op cf (with_table d T) o in
      (mkSeat (se_clock x) (se_tick x) (match o with OpSwap _ => S (se_dirs x) | _ => se_dirs x end)
              (match o with OpSwap start => start | _ => se_last x end) (Some (cf, d')), sh_tab d', r)
  | Run _, None => (x, T, Panic)
  end.
Fixpoint seats_run (X : list seat) (T : table) (l : list (nat * act)) : list seat * table * list (res unit) :=
  match l with
  | [] => (X, T, [])
  | (i, a) :: l' =>
      match nth_error X i with
      | None => (X, T, [])
      | Some x =>
          let '(x', T', r) := seat_act x T a in
          let '(X', T'', rs) := seats_run (upd X i x') T' l' in
          (X', T'', r :: rs)
      end
  end.

(* acts as they can be: both types TiKV, a directory named in ASCII, windows that start later than those before and end
   before the end of time, labels and points that can be written; a process that makes an operation is running *)
Definition act_ok (x : seat) (a : act) : Prop :=
  match a with
  | Start cf => cf_st cf = TiKvDry /\ cf_ix cf = TiKvDry /\ ascii (cf_base cf) /\ cf_base cf <> [] /\ 0 <= cf_size cf /\
      se_last x < next_start x /\ next_start x + cf_size cf < 2 ^ 64
  | Run o => match se_db x with Some (cf, _) => starts_ok cf (se_last x) [o] /\ Forall ireq_ok (written [o]) | None => False end
  end.
Fixpoint acts_ok (X : list seat) (T : table) (l : list (nat * act)) : Prop :=
  match l with
  | [] => True
  | (i, a) :: l' =>
      match nth_error X i with
      | None => False
      | Some x => act_ok x a /\ let '(x', T', _) := seat_act x T a in acts_ok (upd X i x') T' l'
      end
  end.
(* what was asked to be written, with the directory *)
Fixpoint asked_of (l : list (nat * act)) : list (nat * ireq) :=
  match l with
  | [] => []
  | (i, Run o) :: l' => map (pair i) (written [o]) ++ asked_of l'
  | (_, Start _) :: l' => asked_of l'
  end.
(* what the process running on directory i was asked to write *)
Fixpoint since (i : nat) (l : list (nat * act)) (acc : list ireq) : list ireq :=
  match l with
  | [] => acc
  | (j, a) :: l' =>
      since i l' (if (j =? i)%nat then match a with Start _ => [] | Run o => acc ++ written [o] end else acc)
  end.
