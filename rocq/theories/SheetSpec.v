(** Specification for sheets. *)
From Coq Require Import String Ascii.
From Coq Require Import List Arith ZArith Bool.
From Verif Require Import Base ConvertModel ConvertSpec SheetModel.
Import ListNotations.
Open Scope list_scope.

(** Whole numbers are numbers. *)
Definition whole_numbers {T} (of_int : Z -> T) (exact : T -> option Z) (trunc : T -> Z) : Prop :=
  forall n, exact (of_int n) = Some n /\ trunc (of_int n) = n.
(** A code that is still itself after the trip: a number, or a text that does not stand for a missing value and
    does not look like a number. *)
Definition survives {T} (parse : string -> option T) (c : code) : Prop :=
  match c with CNum _ => True | CStr s => ~ In s na_values /\ parse s = None end.
(** Both codes texts or both numbers. *)
Definition same_kind (a b : code) : Prop := is_str a = is_str b.
(** Codes with their documented meaning. *)
Definition documented (cc fc : code) : Prop :=
  In (code_upper fc) documented_failure_codes /\ In (code_upper cc) documented_censored_codes.

(** Columns of entries, [None] being a blank. *)
Definition times {T} (l : list (option T)) : list (cell T) := map (fun o => match o with Some x => Num x | None => Missing end) l.
Definition counts {T} (of_int : Z -> T) (l : list (option Z)) : list (cell T) := map (fun o => match o with Some n => Num (of_int n) | None => Missing end) l.
Definition labels {T} (of_int : Z -> T) (l : list (option code)) : list (cell T) :=
  map (fun o => match o with Some (CStr s) => Txt s | Some (CNum n) => Num (of_int n) | None => Missing end) l.
Definition titled {T} (cols : list (list (cell T))) : sheet T := map (fun c => ("title"%string, c)) cols.
(** The entries that are there. *)
Fixpoint present {A} (l : list (option A)) : list A := match l with [] => [] | Some x :: r => x :: present r | None :: r => present r end.
(** Rows that are complete or blank. *)
Definition column {A B} (g : A -> B) (rows : list (option A)) : list (option B) := map (option_map g) rows.
(** The texts a spreadsheet may have for a missing value (the list documented by pandas.read_excel). *)
Definition missing_texts : list string :=
  [""; "#N/A"; "#N/A N/A"; "#NA"; "-1.#IND"; "-1.#QNAN"; "-NaN"; "-nan"; "1.#IND"; "1.#QNAN"; "<NA>"; "N/A"; "NA"; "NULL"; "NaN"; "None"; "n/a"; "nan"; "null"]%string.
(** A column whose blanks are written as texts. *)
Definition with_texts {T} (l : list (T + string)) : list (cell T) := map (fun e => match e with inl x => Num x | inr s => Txt s end) l.
Fixpoint lefts {A B} (l : list (A + B)) : list A := match l with [] => [] | inl x :: r => x :: lefts r | inr _ :: r => lefts r end.
