(* Model of src/common/utils.rs: chunk directory names; and of the extraction of an entry's name
   in src/db.rs. *)
From Verif Require Import Rust.

(* src/common/utils.rs:26-33 encode_chunk_dir *)
Definition encode_chunk_dir (s e : Z) : bytes := to_hex (Z.lor (Z.shiftl s 64) e).
(* src/common/utils.rs:35-41 decode_chunk_dir *)
Definition decode_chunk_dir (name : bytes) : res (Z * Z) :=
  match parse_u 128 16 name with
  | None => Err ParseErr
  | Some d =>
      let max64 := 2 ^ 64 - 1 in
      let max128 := 2 ^ 128 - 1 in
      Ok (Z.shiftr (Z.land d (max128 - max64)) 64, Z.land d max64)
  end.

(* Paths are strings: lists of code points.  The number of bytes of a code point in UTF-8: *)
Definition utf8_len (c : Z) : Z :=
  if c <? 128 then 1 else if c <? 2048 then 2 else if c <? 65536 then 3 else 4.
(* str::len *)
Fixpoint str_len (s : list Z) : Z :=
  match s with [] => 0 | c :: s' => utf8_len c + str_len s' end.
(* std::path::MAIN_SEPARATOR *)
Definition slash : Z := 47.
(* str::rfind(char): byte offset of the last occurrence *)
Fixpoint rfind (c : Z) (s : list Z) : option Z :=
  match s with
  | [] => None
  | x :: s' =>
      match rfind c s' with
      | Some i => Some (utf8_len x + i)
      | None => if x =? c then Some 0 else None
      end
  end.

(* Path::join with a relative name; a directory entry's path is the directory's joined with its
   name *)
Definition join (dir name : list Z) : list Z :=
  match dir with
  | [] => name
  | _ => if last dir 0 =? slash then dir ++ name else dir ++ [slash] ++ name
  end.

(* src/db.rs:134-141: the name of an entry, from its path *)
Definition extract_name (path : list Z) : res (list Z) :=
  let* i := unwrap (rfind slash path) in
  let i := i + 1 in
  Ok (firstn (Z.to_nat (str_len path - i)) (skipn (Z.to_nat i) path)).
