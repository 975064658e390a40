(** Model of the data frames the nine converters keep for writing (Convert_data.py), of what pandas writes and
    reads back, and of the three readers from the sheet on (Convert_data.py 90-189, 246-268, 323-402;
    Utils.py 6328-6361). *)
From Coq Require Import String Ascii.
From Coq Require Import List Arith ZArith Bool.
From Verif Require Import Base ConvertModel.
Import ListNotations.
Open Scope list_scope.

(** The texts pandas.read_excel takes for missing values unless told otherwise (STR_NA_VALUES of
    pandas._libs.parsers). *)
Definition na_values : list string :=
  [""; "#N/A"; "#N/A N/A"; "#NA"; "-1.#IND"; "-1.#QNAN"; "-NaN"; "-nan"; "1.#IND"; "1.#QNAN"; "<NA>"; "N/A"; "NA"; "NULL"; "NaN"; "None"; "n/a"; "nan"; "null"]%string.

Section Sheet.
  (** Numbers: [of_int] is a whole number as one, [exact] the whole number a number is, if it is one, [trunc] int(),
      [parse] what pandas makes of a text in a column of texts that all look like numbers. *)
  Context {T : Type} (leb : T -> T -> bool) (of_int : Z -> T) (exact : T -> option Z) (trunc : T -> Z) (parse : string -> option T).

  (** A cell: a number, a text or a missing value. *)
  Inductive cell := Num (x : T) | Txt (s : string) | Missing.
  Definition sheet := list (string * list cell).

  (** pd.DataFrame of a dictionary of lists: the lengths must agree. *)
  Definition data_frame (cols : sheet) : result sheet :=
    match cols with
    | [] => Ok cols
    | c :: rest => if forallb (fun d => length (snd d) =? length (snd c)) rest then Ok cols else Err ValueError
    end.
  (** l.extend([""] * (n - len(l))) *)
  Definition pad (n : nat) (l : list cell) : list cell := if n =? length l then l else l ++ repeat (Txt "") (n - length l).

  (** The frame of FR: Convert_data.py 252-265, 683-697, 1158-1171. *)
  Definition FR_frame (f : list cell) (rc : option (list cell)) : result sheet :=
    match rc with
    | Some r => let n := Nat.max (length f) (length r) in data_frame [("failures", pad n f); ("right censored", pad n r)]%string
    | None => data_frame [("failures", f)]%string
    end.
  (** The extend calls for FNRN pad the numbers by the lengths of the times. *)
  Definition pad_with (n len : nat) (l : list cell) : list cell := if n =? len then l else l ++ repeat (Txt "") (n - len).
  (** The frame of FNRN: 365-402, 495-532, 1021-1058. *)
  Definition FNRN_frame (x : FNRN (T := T)) : result sheet :=
    let f := map Num (fn_failures x) in
    let nf := map (fun n => Num (of_int n)) (fn_num_failures x) in
    match fn_right_censored x, fn_num_right_censored x with
    | Some r, Some nr =>
        let rc := map Num r in
        let nrc := map (fun n => Num (of_int n)) nr in
        let n := Nat.max (length f) (length rc) in
        data_frame [("failures", pad_with n (length f) f); ("number of failures", pad_with n (length f) nf);
                    ("right censored", pad_with n (length rc) rc); ("number of right censored", pad_with n (length rc) nrc)]%string
    | _, _ => data_frame [("failures", f); ("number of failures", nf)]%string
    end.
  Definition code_cell (c : code) : cell := match c with CStr s => Txt s | CNum n => Num (of_int n) end.
  (** The frame of XCN: 184-187, 792-795, 931-935. *)
  Definition XCN_frame (x : XCN (T := T)) : result sheet :=
    data_frame [("event time", map Num (xcn_X x)); ("censor code", map code_cell (xcn_C x)); ("number of events", map (fun n => Num (of_int n)) (xcn_N x))]%string.

  (** df.to_excel(index=False) and pd.read_excel. A text for a missing value is read as one; a column of
      texts and numbers that all look like numbers becomes one of numbers. Left out: columns of dates and truth values. *)
  Definition read_cell (c : cell) : cell :=
    match c with Txt s => if existsb (String.eqb s) na_values then Missing else Txt s | _ => c end.
  Definition numeric (c : cell) : bool := match c with Txt s => match parse s with Some _ => true | None => false end | _ => true end.
  Definition to_number (c : cell) : cell := match c with Txt s => match parse s with Some x => Num x | None => c end | _ => c end.
  Definition read_column (l : list cell) : list cell :=
    let l := map read_cell l in
    if forallb numeric l then map to_number l else l.
  Definition read_excel (s : sheet) : sheet := map (fun c => (fst c, read_column (snd c))) s.

  (** removeNaNs, Utils.py 6353-6358 *)
  Definition removeNaNs (l : list cell) : list cell :=
    filter (fun c => match c with Txt s => negb (String.eqb s "nan") | Num _ => true | Missing => false end) l.

  (** Cells used as numbers: numpy raises for texts. *)
  Fixpoint numbers (l : list cell) : result (list T) :=
    match l with
    | [] => Ok []
    | Num x :: r => let! xs := numbers r in Ok (x :: xs)
    | _ :: _ => Err TypeError
    end.
  (** Cells used as codes. Simplification: a number that is not whole is not recognised; the code compares it with the codes
      given by the user as well. *)
  Fixpoint codes (l : list cell) : result (list code) :=
    match l with
    | [] => Ok []
    | Num x :: r => match exact x with
                    | Some n => let! cs := codes r in Ok (CNum n :: cs)
                    | None => Err ValueError
                    end
    | Txt s :: r => let! cs := codes r in Ok (CStr s :: cs)
    | Missing :: _ => Err ValueError
    end.

  (** xlsx_to_FR, 246-268: the attributes failures and right_censored. *)
  Definition sheet_to_FR (s : sheet) : result (list cell * option (list cell)) :=
    match map snd (read_excel s) with
    | [] => Err IndexError
    | [f] => Ok (removeNaNs f, None)
    | f :: r :: _ => Ok (removeNaNs f, Some (removeNaNs r))
    end.
  (** xlsx_to_FNRN, 323-363 *)
  Definition sheet_to_FNRN (s : sheet) : result FNRN :=
    match map snd (read_excel s) with
    | f :: nf :: rest =>
        let f := removeNaNs f in
        let nf := removeNaNs nf in
        if negb (length f =? length nf) then Err ValueError
        else match rest with
             | [] =>
                 let! fs := numbers f in
                 let! ns := numbers nf in
                 xlsx_to_FNRN leb fs (map trunc ns) None
             | [_] => Err IndexError
             | r :: nr :: _ =>
                 let r := removeNaNs r in
                 let nr := removeNaNs nr in
                 if negb (length r =? length nr) then Err ValueError
                 else
                   let! fs := numbers f in
                   let! ns := numbers nf in
                   let! rs := numbers r in
                   let! ms := numbers nr in
                   xlsx_to_FNRN leb fs (map trunc ns) (Some (rs, map trunc ms))
             end
    | _ => Err IndexError
    end.
  (** xlsx_to_XCN, 90-183. Simplification: texts in the columns of numbers are refused before, not after, the checks of
      the codes. *)
  Definition sheet_to_XCN (s : sheet) (censor_code_in_xlsx failure_code_in_xlsx : option code) (censor_code_in_XCN failure_code_in_XCN : code) : result XCN :=
    match map snd (read_excel s) with
    | x :: c :: rest =>
        let! xs := numbers (removeNaNs x) in
        let! cs := codes (removeNaNs c) in
        let! ns := match rest with
                   | [] => Ok None
                   | n :: _ => let! ns := numbers (removeNaNs n) in Ok (Some (map trunc ns))
                   end in
        xlsx_to_XCN leb xs cs ns censor_code_in_xlsx failure_code_in_xlsx censor_code_in_XCN failure_code_in_XCN
    | _ => Err IndexError
    end.
End Sheet.
Arguments cell : clear implicits.
Arguments sheet : clear implicits.
Arguments Missing {T}.
Arguments Txt {T}.
