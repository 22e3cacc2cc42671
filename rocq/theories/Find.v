(* src/common/utils.rs:130-147 get_file_from_dir, and src/chunk/chunk.rs:178-187 comparing chunks. *)
From Verif Require Import Rust Storage Indexer Chunk Proto.

(* what read_dir gives, in its order: the name of an entry, as the bytes the system has, or an entry
   that could not be read *)
Definition entry := option bytes.

(* src/common/utils.rs:134-137 the entry found: entries that could not be read are passed over,
   into_string().unwrap() panics on a name that is not UTF-8.  The error of an entry is never met
   by the unwrap at the end, for only entries that could be read are found. *)
Fixpoint find_entry (l : list entry) (filename : bytes) : res (option bytes) :=
  match l with
  | [] => Ok None
  | None :: l' => find_entry l' filename
  | Some name :: l' =>
      if utf8 name then if bytes_eqb name filename then Ok (Some name) else find_entry l' filename
      else Panic
  end.
(* src/common/utils.rs:133-147 get_file_from_dir.  [dir] is the listing, None if the directory cannot
   be read; [open] is File::open of the entry with that name, None if it fails. *)
Definition get_file_from_dir {F} (dir : option (list entry)) (open : bytes -> option F) (filename : bytes) : res (option F) :=
  match dir with
  | None => Err IoError
  | Some l =>
      let* file := find_entry l filename in
      match file with
      | Some name => match open name with Some fl => Ok (Some fl) | None => Err IoError end
      | None => Ok None
      end
  end.

(* src/chunk/chunk.rs:178-187 PartialEq for Chunk: by start and end time only *)
Definition chunk_eqb (a b : chunk) : bool := (c_start a =? c_start b) && (c_end a =? c_end b).
