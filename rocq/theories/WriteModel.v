(** Model of write_df_to_xlsx (Utils.py 6253-6325), which the write_to_xlsx methods of the nine converters
    call (Convert_data.py 208, 287, 420, 545, 713, 818, 958, 1073, 1192). Paths are lists of characters;
    warnings and printed texts are left out. *)
From Coq Require Import String Ascii.
From Coq Require Import List Arith Bool.
From Verif Require Import Base ConvertModel.
Import ListNotations.
Open Scope list_scope.

Definition path := list ascii.
Definition slash : ascii := "/".
Definition backslash : ascii := "\".
Definition dot : ascii := ".".
Definition colon : ascii := ":".
Inductive platform := Posix | Windows.

(** str.rstrip of separators. *)
Fixpoint strip_front (sep : ascii -> bool) (p : path) : path := match p with c :: r => if sep c then strip_front sep r else p | [] => [] end.
Definition rstrip (sep : ascii -> bool) (p : path) : path := rev (strip_front sep (rev p)).
(** p[:i] and p[i:] where i follows the last separator. *)
Fixpoint split_last (sep : ascii -> bool) (p : path) : path * path :=
  match p with
  | [] => ([], [])
  | c :: r => let '(h, t) := split_last sep r in
      match h with [] => if sep c then ([c], t) else ([], c :: t) | _ => (c :: h, t) end
  end.
Definition is_slash (c : ascii) : bool := Ascii.eqb c slash.
Definition is_sep (c : ascii) : bool := Ascii.eqb c slash || Ascii.eqb c backslash.
(** posixpath.split *)
Definition posix_split (p : path) : path * path :=
  let '(h, t) := split_last is_slash p in
  (if forallb is_slash h then h else rstrip is_slash h, t).
(** ntpath.splitdrive; the drive is a letter and a colon. Left out: the drives of network shares. *)
Definition nt_drive (p : path) : path * path :=
  match p with a :: b :: r => if Ascii.eqb b colon && negb (is_sep a) then ([a; b], r) else ([], p) | _ => ([], p) end.
(** ntpath.split *)
Definition nt_split (p : path) : path * path :=
  let '(d, r) := nt_drive p in
  let '(h, t) := split_last is_sep r in
  let h' := rstrip is_sep h in
  (d ++ match h' with [] => h | _ => h' end, t).
Definition os_path_split (os : platform) (p : path) : path * path := match os with Posix => posix_split p | Windows => nt_split p end.

(** str.split("."): the pieces. *)
Fixpoint split_dots (p : path) : list path :=
  match p with
  | [] => [[]]
  | c :: r => match split_dots r with
              | [] => [[]]
              | x :: l => if Ascii.eqb c dot then [] :: x :: l else (c :: x) :: l
              end
  end.
Definition new_suffix : path := list_ascii_of_string "(new)".
(** 6297-6302 *)
Definition new_path (os : platform) (p : path) : result path :=
  let X := os_path_split os p in
  let Y := split_dots (snd X) in
  match Y with
  | y0 :: y1 :: _ => Ok (fst X ++ [backslash] ++ (y0 ++ new_suffix ++ [dot] ++ y1))
  | _ => Err IndexError
  end.

Section Write.
  Context {sheet : Type}.
  (** A file: its content and whether this process may read it. *)
  Record file := mkFile { content : sheet; readable : bool }.
  Definition fsys := path -> option file.
  (** open(path) in a try: 6285, 6308. *)
  Definition can_open (fs : fsys) (p : path) : bool := match fs p with Some f => readable f | None => false end.

  (** The loop of 6279-6310 with at most [fuel] passes; [answers i] is the i-th answer the user would give,
      [asked] how many questions were asked. The result: the path, and how many questions. *)
  Fixpoint choose_path (os : platform) (fs : fsys) (answers : nat -> string) (fuel : nat) (first : bool) (asked : nat) (p : path) : option (result (path * nat)) :=
    match fuel with
    | O => None
    | S fuel =>
        if can_open fs p then
          let choice := if first then answers asked else "N"%string in
          let asked' := if first then S asked else asked in
          if String.eqb (upper choice) "N" then
            match new_path os p with
            | Err e => Some (Err e)
            | Ok q => choose_path os fs answers fuel false asked' q
            end
          else if String.eqb (upper choice) "Y" then Some (Ok (p, asked'))
          else choose_path os fs answers fuel true asked' p
        else Some (Ok (p, asked))
    end.

  (** df.to_excel: what can be written where (the extension, the directory, permissions) is an argument. The file
      written can be read. *)
  Definition to_excel (can_write : path -> bool) (fs : fsys) (p : path) (s : sheet) : result fsys :=
    if can_write p then Ok (fun q => if list_eq_dec ascii_dec q p then Some (mkFile s true) else fs q) else Err ValueError.
  (** write_df_to_xlsx: the file system afterwards, the path and the number of questions. *)
  Definition write_df_to_xlsx (os : platform) (can_write : path -> bool) (fs : fsys) (answers : nat -> string) (fuel : nat) (p : path) (s : sheet)
    : option (result (fsys * (path * nat))) :=
    match choose_path os fs answers fuel true 0 p with
    | None => None
    | Some (Err e) => Some (Err e)
    | Some (Ok (q, n)) => Some (match to_excel can_write fs q s with Err e => Err e | Ok fs' => Ok (fs', (q, n)) end)
    end.
End Write.
(** The options for pandas, 6314-6325: excel_writer is dropped, index is taken out, False by default. *)
Definition excel_kwargs {V} (kwargs : list (string * V)) : option V * list (string * V) :=
  let k := filter (fun kv => negb (String.eqb (fst kv) "excel_writer")) kwargs in
  (match find (fun kv => String.eqb (fst kv) "index") k with Some kv => Some (snd kv) | None => None end, filter (fun kv => negb (String.eqb (fst kv) "index")) k).
