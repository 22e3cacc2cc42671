(* Specification vocabulary for label sets and the label index.  It does not mention keys or
   stored values. *)
From Coq Require Import Permutation Sorted.
From Verif Require Import Rust Prog Labels Indexer.

(* a label that can be told apart in the index: no comma, no '=' in the name *)
Definition lab_ok (l : label) : Prop :=
  ~ In comma (l_key l) /\ ~ In comma (l_val l) /\ ~ In equals (l_key l).

(* the labels as text: name=value, separated by commas *)
Fixpoint label_text (r : list label) : bytes :=
  match r with
  | [] => []
  | [l] => l_key l ++ [equals] ++ l_val l
  | l :: r' => l_key l ++ [equals] ++ l_val l ++ [comma] ++ label_text r'
  end.

(* names are distinct *)
Definition keys_distinct (ls : list label) : Prop := NoDup (map l_key ls).

(* the single label of a one-label set does not have a name starting with 'R' (82) *)
Definition not_R (ls : list label) : Prop :=
  forall l, ls = [l] -> hd_error (l_key l) <> Some 82.

(* a well-formed label set *)
Definition set_ok (ls : list label) : Prop := Forall lab_ok ls /\ keys_distinct ls /\ not_R ls.

(* the index as a list of registrations (id, label set), oldest first *)
Definition reg := list (Z * list label).

Definition has (ls : list label) (l : label) : bool := existsb (label_eqb l) ls.

(* some registered set contains l *)
Definition known (R : reg) (l : label) : bool := existsb (fun e => has (snd e) l) R.

(* the registrations containing every searched label that is known; none if no searched label
   is known *)
Definition search_regs (R : reg) (q : list label) : reg :=
  if existsb (known R) q
  then filter (fun e => forallb (fun l => negb (known R l) || has (snd e) l) q) R
  else [].

(* equality of label sets, ignoring order (for sets with distinct names) *)
Definition same_set (a b : list label) : Prop := Permutation a b.
Definition same_setb (a b : list label) : bool :=
  (length a =? length b)%nat && forallb (has b) a.

(* an index that refuses a label set already there *)
Definition register_once (R : reg) (e : Z * list label) : reg :=
  if existsb (fun e' => same_setb (snd e') (snd e)) R then R else R ++ [e].
Definition registered_once (h : reg) : reg := fold_left register_once h [].

Definition id_ok (id : Z) : Prop := 0 <= id < 2 ^ 64.
Definition ascending (l : list Z) : Prop := StronglySorted Z.lt l.
(* a history of index creations: ids and label sets *)
Definition hist_ok (h : reg) : Prop := Forall (fun e => id_ok (fst e) /\ set_ok (snd e)) h.

(* the store after calling create_index for each entry of h, in order, on an empty store *)
Definition created (ix : indexer) (h : reg) : kv :=
  fold_left (fun s e => snd (krun (create_index ix (snd e) (fst e)) s)) h [].
(* what an index should hold after h: sled refuses repeated label sets, TiKV does not *)
Definition registry (ix : indexer) (h : reg) : reg :=
  match ix with SledIndexer => registered_once h | TiKvIndexer _ => h end.

(* sorted by name: no label is followed by one with a smaller name *)
Definition sorted_by_name (ls : list label) : Prop :=
  StronglySorted (fun a b => bytes_cmp (l_key a) (l_key b) <> Gt) ls.
