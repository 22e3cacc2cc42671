(* Model of src/common/label.rs, src/common/utils.rs (intersection), src/common/mod.rs
   (order_intersect) and of KvIndexerProcessor in src/indexer/sled_indexer.rs. *)
From Coq Require Import String.
From Verif Require Import Rust Compactor.

(* src/common/label.rs:6-10.  Strings are byte lists. *)
Record label := mkLabel { l_key : bytes; l_val : bytes }.

(* String's order: lexicographic on bytes *)
Fixpoint bytes_cmp (a b : bytes) : comparison :=
  match a, b with
  | [], [] => Eq
  | [], _ => Lt
  | _, [] => Gt
  | x :: a', y :: b' => match x ?= y with Eq => bytes_cmp a' b' | c => c end
  end.

(* src/common/label.rs:46-56 Ord for Label: by key only *)
Definition label_cmp (a b : label) : comparison := bytes_cmp (l_key a) (l_key b).
(* src/common/label.rs:60-64 PartialEq for Label *)
Definition label_eqb (a b : label) : bool :=
  bytes_eqb (l_key a) (l_key b) && bytes_eqb (l_val a) (l_val b).

(* src/common/label.rs:99-108 PartialEq for Labels: compares the labels of self with those at
   the same place in other; panics when other is a proper prefix of self *)
Fixpoint labels_eq (a b : list label) : res bool :=
  match a, b with
  | [], _ => Ok true
  | _ :: _, [] => Panic
  | x :: a', y :: b' => if label_eqb x y then labels_eq a' b' else Ok false
  end.

(* src/common/label.rs:137-139 Labels::sort = Vec::sort, a stable sort: written as insertion
   sort, a stable sort's result being unique *)
Fixpoint insert_label (x : label) (l : list label) : list label :=
  match l with
  | [] => [x]
  | y :: l' => match label_cmp x y with
               | Gt => y :: insert_label x l'
               | _ => x :: l
               end
  end.
Definition sort_labels (l : list label) : list label := fold_right insert_label [] l.

(* ------------------------------------------------------------------ *)
(** * KvIndexerProcessor *)
Definition comma : Z := 44.
Definition equals : Z := 61.

(* src/indexer/sled_indexer.rs:257-259 _encode_label *)
Definition encode_pair (l : label) : bytes := l_key l ++ [equals] ++ l_val l.
(* src/indexer/sled_indexer.rs:15, 262-268 encode_label *)
Definition encode_label (l : label) : bytes := s2b "LR" ++ encode_pair l.
(* src/indexer/sled_indexer.rs:275-289 encode_labels; String::pop on an empty string does
   nothing, otherwise it removes the last comma *)
Definition encode_labels (ls : list label) (with_prefix : bool) : bytes :=
  let body := removelast (concat_bytes (map (fun l => encode_pair l ++ [comma]) (sort_labels ls))) in
  if with_prefix then s2b "L" ++ body else body.

(* src/indexer/sled_indexer.rs:302-317: one pair *)
Definition decode_pair (p : bytes) : res label :=
  match find_char equals p with
  | None => Err InternalErr
  | Some i => Ok (mkLabel (firstn i p) (skipn (S i) p))
  end.
(* src/indexer/sled_indexer.rs:295-319 decode_labels; replace_range(..1, "") panics on an
   empty string.  (It also panics when byte 1 is not a character boundary; keys start with
   'L', so this is left out.) *)
Definition decode_labels (s : bytes) (is_key : bool) : res (list label) :=
  let* s := if is_key then match s with [] => Panic | _ :: s' => Ok s' end else Ok s in
  mapM decode_pair (split_on comma s).

(* src/indexer/sled_indexer.rs:321-323 encode_time_series_id *)
Definition encode_time_series_id (id : Z) : bytes := s2b "I" ++ to_dec id.
(* src/indexer/sled_indexer.rs:325-329 decode_time_series_id *)
Definition decode_time_series_id (s : bytes) : res Z :=
  match s with
  | [] => Panic
  | _ :: s' => match parse_u 64 10 s' with Some z => Ok z | None => Err ParseErr end
  end.

(* ------------------------------------------------------------------ *)
(** * Intersection *)

(* src/common/mod.rs:26-44 order_intersect; the two indices are written as the two remaining
   suffixes *)
Fixpoint order_intersect (a : list Z) : list Z -> list Z :=
  fix inner (b : list Z) : list Z :=
    match a, b with
    | x :: a', y :: b' =>
        if x =? y then x :: order_intersect a' b'
        else if y <? x then inner b'
        else order_intersect a' b
    | _, _ => []
    end.

(* src/common/utils.rs:94-124: the polling loop.  Each round polls channel 1 (unless it has
   delivered) and then channel 2; [polls] tells for each round whether a message was there.
   After the listed rounds both messages have arrived (both workers finish). *)
Fixpoint gather {A} (polls : list (bool * bool)) (v1 v2 : A) (fin1 fin2 : bool) (next : list A)
  : list A :=
  match polls with
  | [] => (if fin1 then next else next ++ [v1]) ++ (if fin2 then [] else [v2])
  | (p1, p2) :: polls' =>
      let '(fin1, next) := if negb fin1 && p1 then (true, next ++ [v1]) else (fin1, next) in
      let '(fin2, next) := if negb fin2 && p2 then (true, next ++ [v2]) else (fin2, next) in
      if fin1 && fin2 then next else gather polls' v1 v2 fin1 fin2 next
  end.

(* the timing of the worker threads: for each position in the tree of recursive calls, the
   outcome of the polls made there *)
Definition timing := list bool -> list (bool * bool).

(* src/common/utils.rs:56-128 intersect_time_series_id_vec.  The recursion depth is bounded by
   [fuel]; running out of fuel is None (C18 shows that the length of the input suffices).
   The two workers compute on their own copies; a worker's result is always Ok. *)
Fixpoint intersect_fuel (fuel : nat) (o : timing) (path : list bool) (ts : list (list Z))
  : option (list Z) :=
  match fuel with
  | O => None
  | S fuel' =>
      match ts with
      | [] => Some []
      | [a] => Some a
      | [a; b] => Some (order_intersect a b)
      | _ =>
          if Nat.odd (length ts) then
            match intersect_fuel fuel' o (false :: path) (removelast ts) with
            | Some r => Some (order_intersect r (last ts []))
            | None => None
            end
          else
            let half := Nat.div2 (length ts) in
            match intersect_fuel fuel' o (false :: path) (firstn half ts),
                  intersect_fuel fuel' o (true :: path) (skipn half ts) with
            | Some v1, Some v2 =>
                intersect_fuel fuel' o (true :: false :: path) (gather (o path) v1 v2 false false [])
            | _, _ => None
            end
      end
  end.
Definition intersect_time_series_id_vec (o : timing) (ts : list (list Z)) : option (list Z) :=
  intersect_fuel (S (length ts)) o [] ts.
