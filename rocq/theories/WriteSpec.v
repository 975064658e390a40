(** Specification for writing spreadsheets. *)
From Coq Require Import String Ascii.
From Coq Require Import List Arith.
From Verif Require Import Base ConvertModel WriteModel.
Import ListNotations.

(** An answer to the question whether to overwrite, in either case; anything else is asked again. *)
Definition says_yes (s : string) : Prop := s = "Y"%string \/ s = "y"%string.
Definition says_no (s : string) : Prop := s = "N"%string \/ s = "n"%string.
Definition neither (s : string) : Prop := ~ says_yes s /\ ~ says_no s.
(** The first answer that is one is number n. *)
Definition first_yes (answers : nat -> string) (n : nat) : Prop := says_yes (answers n) /\ forall i, i < n -> neither (answers i).
Definition first_no (answers : nat -> string) (n : nat) : Prop := says_no (answers n) /\ forall i, i < n -> neither (answers i).

(** Finitely many files. *)
Definition finite_files {sheet} (fs : @fsys sheet) : Prop := exists l, forall p, fs p <> None -> In p l.
Definition exists_file {sheet} (fs : @fsys sheet) (p : path) : Prop := fs p <> None.
Definition readable_file {sheet} (fs : @fsys sheet) (p : path) : Prop := exists f, fs p = Some f /\ readable f = true.
(** Only the file p changes, and holds s afterwards. *)
Definition only_writes {sheet} (fs fs' : @fsys sheet) (p : path) (s : sheet) : Prop :=
  (exists f, fs' p = Some f /\ content f = s) /\ forall q, q <> p -> fs' q = fs q.

Definition no_sep (p : path) : Prop := Forall (fun c => is_sep c = false) p.
Definition no_dot (p : path) : Prop := ~ In dot p.
(** The directory, a separator and the name. *)
Definition in_directory (dir name : path) : path := dir ++ backslash :: name.
Fixpoint new_times (k : nat) : path := match k with O => [] | S k => new_times k ++ new_suffix end.
(** A Windows directory: a drive, or none and no colon, followed by something that does not end in a
    separator. *)
Definition windows_directory (d : path) : Prop :=
  exists drive r, d = drive ++ r /\ ((drive = [] /\ ~ In colon r) \/ (exists a, drive = [a; colon] /\ is_sep a = false)) /\ r <> [] /\ is_sep (last r dot) = false.
