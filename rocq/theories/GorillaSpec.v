(* Specification vocabulary for the Gorilla codec: which series are claimed to survive
   compression.  It speaks about timestamps, values and their XORs only, not about the
   encoder. *)
From Verif Require Import Rust Gorilla.

(* a point the Rust type can represent *)
Definition tp_ok (p : tp) : Prop := 0 <= tp_ts p < 2 ^ 64 /\ 0 <= tp_val p < 2 ^ 64.

(* a change of interval (delta of delta) that survives.  With overflow checks only 16-bit
   changes do; without, all but three values. *)
Definition dod_ok (dbg : bool) (dod : Z) : bool :=
  if dbg then (-32767 <=? dod) && (dod <=? 32767) && negb (dod =? 128)
  else negb (dod =? 128) && negb (dod =? 32768) && negb (dod =? 2 ^ 31).

(* signed 64-bit interval between two timestamps *)
Definition interval (t t' : Z) : Z := wraps 64 (t' - t).

(* the timestamp of the point number n (0-based) survives, given the previous timestamp t
   and the previous interval d *)
Definition ts_ok (dbg : bool) (n t d t' : Z) : bool :=
  if n =? 0 then true
  else if n =? 1 then
    if dbg then (t <=? t') && ((t' <? 2 ^ 63) || (2 ^ 63 <=? t) || (2 ^ 63 <=? t' - t))
    else true
  else
    if dbg then (t <=? t') && dod_ok dbg (interval t t' - d)
    else dod_ok dbg (wraps 64 (interval t t' - d)).

(* the value of point number n survives, given the previous value and the current window
   (number of leading and trailing zero bits of the last XOR that opened a window) *)
Definition fits_window (win : Z * Z) (x : Z) : bool :=
  (fst win <=? leading_zeros64 x) && (snd win <=? trailing_zeros64 x).
Definition reuses (n : Z) (win : Z * Z) (x : Z) : bool := (1 <? n) && fits_window win x.
Definition opens_ok (x : Z) : bool :=
  (leading_zeros64 x <? 32) && negb ((leading_zeros64 x =? 0) && (trailing_zeros64 x =? 0)).
Definition val_ok (n : Z) (win : Z * Z) (v v' : Z) : bool :=
  let x := Z.lxor v' v in
  (n =? 0) || (x =? 0) || reuses n win x || opens_ok x.

(* the window after the point *)
Definition next_win (n : Z) (win : Z * Z) (v v' : Z) : Z * Z :=
  let x := Z.lxor v' v in
  if (n =? 0) || (x =? 0) || reuses n win x then win
  else (leading_zeros64 x, trailing_zeros64 x).

Fixpoint admissible_from (dbg : bool) (n t d v : Z) (win : Z * Z) (ps : list tp) : bool :=
  match ps with
  | [] => true
  | p :: ps' =>
      ts_ok dbg n t d (tp_ts p) && val_ok n win v (tp_val p) &&
      admissible_from dbg (n + 1) (tp_ts p) (if n =? 0 then 0 else interval t (tp_ts p))
        (tp_val p) (next_win n win v (tp_val p)) ps'
  end.

(* the series survives compression in build profile [dbg] *)
Definition admissible (dbg : bool) (ps : list tp) : bool :=
  admissible_from dbg 0 0 0 0 (0, 0) ps.

(* A simple sufficient condition in plain terms, good for both build profiles: consecutive
   timestamps do not decrease and stay below 2^63; the change of interval is within 16 bits
   and not 128; the XOR of consecutive values is zero, or is at least 2^32 (fewer than 32
   leading zeros) and does not have both its first and its last bit set. *)
Definition gentle_step (a b : tp) : Prop :=
  tp_ts a <= tp_ts b < 2 ^ 63 /\
  (tp_val a = tp_val b \/
   (2 ^ 32 <= Z.lxor (tp_val b) (tp_val a) /\
    (Z.lxor (tp_val b) (tp_val a) < 2 ^ 63 \/ Z.even (Z.lxor (tp_val b) (tp_val a)) = true))).
Definition gentle_bend (a b c : tp) : Prop :=
  let bend := (tp_ts c - tp_ts b) - (tp_ts b - tp_ts a) in
  -32767 <= bend <= 32767 /\ bend <> 128.
Fixpoint gentle (ps : list tp) : Prop :=
  match ps with
  | a :: ((b :: rest) as l) =>
      gentle_step a b /\ match rest with c :: _ => gentle_bend a b c | [] => True end /\ gentle l
  | _ => True
  end.
