(** Model of reliability/Convert_data.py: the conversions between the FR, XCN and FNRN
    data formats.

    Simplifications.  Times are elements of any type with a decidable total order
    (floats without nan).  Codes are strings or integers.  Quantities are integers
    ([int(N[i])] of the code is the identity on them).  The type checks on containers
    ("must be a list or array") always succeed because the model is typed.  The
    DataFrames kept for printing and for writing to Excel are in SheetModel. *)
From Coq Require Import List Arith ZArith Bool Ascii String DecimalString.
From Verif Require Import Base.
Import ListNotations.
Local Open Scope list_scope.

(** A censoring code in column C. *)
Inductive code := CStr (s : string) | CNum (n : Z).

(** Python's [==] on codes: a string never equals a number. *)
Definition code_eqb (a b : code) : bool :=
  match a, b with
  | CStr s, CStr t => String.eqb s t
  | CNum m, CNum n => Z.eqb m n
  | _, _ => false
  end.

(** str.upper(), on ASCII. *)
Definition upper_ascii (c : ascii) : ascii :=
  let n := nat_of_ascii c in
  if (97 <=? n) && (n <=? 122) then ascii_of_nat (n - 32) else c.

Fixpoint upper (s : string) : string :=
  match s with
  | EmptyString => EmptyString
  | String c r => String (upper_ascii c) (upper r)
  end.

(** Convert_data.py:616-621 (and 102-106): strings are upper-cased, numbers kept. *)
Definition code_upper (c : code) : code :=
  match c with CStr s => CStr (upper s) | CNum n => CNum n end.

(** numpy arrays are homogeneous: np.array / np.hstack of strings and numbers turns the
    numbers into their decimal strings. *)
Definition is_str (c : code) : bool := match c with CStr _ => true | CNum _ => false end.

Definition code_to_str (c : code) : code :=
  match c with
  | CStr s => CStr s
  | CNum n => CStr (NilZero.string_of_int (Z.to_int n))
  end.

Definition np_coerce (l : list code) : list code :=
  if existsb is_str l then map code_to_str l else l.

(** len(np.unique(C_upper)) *)
Fixpoint code_mem (c : code) (l : list code) : bool :=
  match l with [] => false | d :: r => code_eqb c d || code_mem c r end.

Fixpoint code_nodup (l : list code) : list code :=
  match l with
  | [] => []
  | c :: r => if code_mem c r then code_nodup r else c :: code_nodup r
  end.

Definition n_unique_codes (l : list code) : nat := List.length (code_nodup (np_coerce l)).

(** Convert_data.py:650 (and 126): codes that mean "failed" unless overridden. *)
Definition default_fail : list code :=
  [CStr "F"; CStr "FAIL"; CStr "FAILED"; CStr "FAILURE"; CNum 0]%string.

(** Convert_data.py:652-672 (and 128-148): codes that mean "right censored". *)
Definition default_cens : list code :=
  [CStr "R"; CStr "RC"; CStr "RIGHT CENS"; CStr "RIGHT CENSORED"; CStr "C";
   CStr "CENSORED"; CStr "CENS"; CStr "S"; CStr "SUSP"; CStr "SUSPENSION";
   CStr "SUSPENDED"; CStr "UF"; CStr "UNFAILED"; CStr "UNFAIL"; CStr "NF";
   CStr "NO FAIL"; CStr "NO FAILURE"; CStr "NOT FAILED"; CNum 1]%string.

Definition opt_eqb (c : code) (o : option code) : bool :=
  match o with None => false | Some d => code_eqb c d end.

(** The decision chain of Convert_data.py:644-677 (and 122-152) for one upper-cased
    code: [Some true] failure, [Some false] censored, [None] unrecognised. *)
Definition classify (failure_code censor_code : option code) (c : code) : option bool :=
  if opt_eqb c failure_code then Some true
  else if opt_eqb c censor_code then Some false
  else if code_mem c default_fail then Some true
  else if code_mem c default_cens then Some false
  else None.

Section Convert.
  Context {T : Type} (leb : T -> T -> bool).

  Definition eqb (x y : T) : bool := leb x y && leb y x.

  Record FR := mkFR { fr_failures : list T; fr_right_censored : option (list T) }.
  Record FNRN := mkFNRN {
    fn_failures : list T; fn_num_failures : list Z;
    fn_right_censored : option (list T); fn_num_right_censored : option (list Z) }.
  Record XCN := mkXCN { xcn_X : list T; xcn_C : list code; xcn_N : list Z }.

  (** np.ones(int(n)) * x, appended; np.ones of a negative length raises ValueError. *)
  Definition ones_times (n : Z) (x : T) : result (list T) :=
    if (n <? 0)%Z then Err ValueError else Ok (repeat x (Z.to_nat n)).

  (** The loops of FNRN_to_FR, Convert_data.py:1138-1140 and 1153-1156. *)
  Fixpoint expand (xs : list T) (ns : list Z) : result (list T) :=
    match xs, ns with
    | x :: xs', n :: ns' =>
        let! head := ones_times n x in
        let! tail := expand xs' ns' in
        Ok (head ++ tail)
    | _, _ => Ok []
    end.

  (** np.unique(l, return_counts=True): sort, then run lengths. *)
  Fixpoint runs (l : list T) : list (T * Z) :=
    match l with
    | [] => []
    | x :: r =>
        match runs r with
        | (y, k) :: q => if eqb x y then (y, (k + 1)%Z) :: q else (x, 1%Z) :: (y, k) :: q
        | [] => [(x, 1%Z)]
        end
    end.

  Definition np_unique (l : list T) : list T * list Z := split (runs (isort leb l)).

  (** FR_to_FNRN, Convert_data.py:1007-1019. *)
  Definition FR_to_FNRN (failures : list T) (right_censored : option (list T)) : FNRN :=
    let (f, nf) := np_unique failures in
    match right_censored with
    | Some rc => let (r, nr) := np_unique rc in mkFNRN f nf (Some r) (Some nr)
    | None => mkFNRN f nf None None
    end.

  (** FNRN_to_FR, Convert_data.py:1129-1171.  [num_right_censored = None] together with
      censored data fails the type check at 1146 and raises ValueError. *)
  Definition FNRN_to_FR (failures : list T) (num_failures : list Z)
      (right_censored : option (list T)) (num_right_censored : option (list Z))
      : result FR :=
    if negb (List.length failures =? List.length num_failures)%nat then Err ValueError
    else
      let! f := expand failures num_failures in
      match right_censored with
      | None => Ok (mkFR f None)
      | Some rc =>
          match num_right_censored with
          | None => Err ValueError
          | Some nrc =>
              if negb (List.length rc =? List.length nrc)%nat then Err ValueError
              else let! r := expand rc nrc in Ok (mkFR f (Some r))
          end
      end.

  (** The loop of XCN_to_FR, Convert_data.py:642-678, with accumulators [f] and [r]. *)
  Fixpoint xcn_loop (fc cc : option code) (X : list T) (C : list code) (N : list Z)
      (f r : list T) : result (list T * list T) :=
    match X, C, N with
    | x :: X', c :: C', n :: N' =>
        match classify fc cc c with
        | Some true => let! h := ones_times n x in xcn_loop fc cc X' C' N' (f ++ h) r
        | Some false => let! h := ones_times n x in xcn_loop fc cc X' C' N' f (r ++ h)
        | None => Err ValueError
        end
    | _, _, _ => Ok (f, r)
    end.

  (** XCN_to_FR, Convert_data.py:603-682. *)
  Definition XCN_to_FR (X : list T) (C : list code) (N : option (list Z))
      (censor_code failure_code : option code) : result FR :=
    let N := match N with None => map (fun _ => 1%Z) X | Some n => n end in
    if negb (List.length X =? List.length C)%nat then Err ValueError
    else if negb (List.length X =? List.length N)%nat then Err ValueError
    else
      let C_upper := map code_upper C in
      if (2 <? n_unique_codes C_upper)%nat then Err ValueError
      else
        let! p := xcn_loop (option_map code_upper failure_code)
                    (option_map code_upper censor_code) X C_upper N [] [] in
        let (f, r) := p in
        Ok (mkFR f (match r with [] => None | _ => Some r end)).

  (** XCN_to_FNRN, Convert_data.py:484-493. *)
  Definition XCN_to_FNRN (X : list T) (C : list code) (N : option (list Z))
      (censor_code failure_code : option code) : result FNRN :=
    let! fr := XCN_to_FR X C N censor_code failure_code in
    Ok (FR_to_FNRN (fr_failures fr) (fr_right_censored fr)).

  (** Assembling the XCN columns: Convert_data.py:771-791 and 906-930. *)
  Definition fnrn_columns (fn : FNRN) (censor_code failure_code : code) : XCN :=
    match fn_right_censored fn, fn_num_right_censored fn with
    | Some r, Some nr =>
        mkXCN (fn_failures fn ++ r)
          (np_coerce (repeat failure_code (List.length (fn_failures fn)) ++
                      repeat censor_code (List.length r)))
          (fn_num_failures fn ++ nr)
    | _, _ =>
        mkXCN (fn_failures fn) (repeat failure_code (List.length (fn_failures fn)))
          (fn_num_failures fn)
    end.

  (** FR_to_XCN, Convert_data.py:764-791. *)
  Definition FR_to_XCN (failures : list T) (right_censored : option (list T))
      (censor_code failure_code : code) : XCN :=
    fnrn_columns (FR_to_FNRN failures right_censored) censor_code failure_code.

  (** FNRN_to_XCN, Convert_data.py:875-930. *)
  Definition FNRN_to_XCN (failures : list T) (num_failures : list Z)
      (right_censored : option (list T)) (num_right_censored : option (list Z))
      (censor_code failure_code : code) : result XCN :=
    let! fr := FNRN_to_FR failures num_failures right_censored num_right_censored in
    Ok (fnrn_columns (FR_to_FNRN (fr_failures fr) (fr_right_censored fr))
          censor_code failure_code).

  (** The recoding loop of xlsx_to_XCN, Convert_data.py:122-152. *)
  Fixpoint recode (fc_in cc_in : option code) (fc_out cc_out : code) (C : list code)
      : result (list code) :=
    match C with
    | [] => Ok []
    | c :: C' =>
        match classify fc_in cc_in c with
        | Some true => let! r := recode fc_in cc_in fc_out cc_out C' in Ok (fc_out :: r)
        | Some false => let! r := recode fc_in cc_in fc_out cc_out C' in Ok (cc_out :: r)
        | None => Err ValueError
        end
    end.

  (** xlsx_to_XCN, Convert_data.py:98-184, from the point where the columns of the
      sheet have been read and cleared of blanks: [X], [C0] and, if present, [N]. *)
  Definition xlsx_to_XCN (X : list T) (C0 : list code) (N : option (list Z))
      (censor_code_in_xlsx failure_code_in_xlsx : option code)
      (censor_code_in_XCN failure_code_in_XCN : code) : result XCN :=
    let C_upper := map code_upper C0 in
    if (2 <? n_unique_codes C_upper)%nat then Err ValueError
    else
      let! C_out := recode (option_map code_upper failure_code_in_xlsx)
                      (option_map code_upper censor_code_in_xlsx)
                      failure_code_in_XCN censor_code_in_XCN C_upper in
      let C := np_coerce C_out in
      let N := match N with None => map (fun _ => 1%Z) X | Some n => n end in
      if negb (List.length X =? List.length C)%nat
         || negb (List.length X =? List.length N)%nat
      then Err ValueError
      else
        let! fr := XCN_to_FR X C (Some N) None None in
        Ok (FR_to_XCN (fr_failures fr) (fr_right_censored fr)
              censor_code_in_XCN failure_code_in_XCN).

  (** xlsx_to_FNRN, Convert_data.py:330-363, after reading the columns. *)
  Definition xlsx_to_FNRN (failures : list T) (num_failures : list Z)
      (cens : option (list T * list Z)) : result FNRN :=
    if negb (List.length failures =? List.length num_failures)%nat then Err ValueError
    else
      match cens with
      | None =>
          let! fr := FNRN_to_FR failures num_failures None None in
          Ok (FR_to_FNRN (fr_failures fr) (fr_right_censored fr))
      | Some (rc, nrc) =>
          if negb (List.length rc =? List.length nrc)%nat then Err ValueError
          else
            let! fr := FNRN_to_FR failures num_failures (Some rc) (Some nrc) in
            Ok (FR_to_FNRN (fr_failures fr) (fr_right_censored fr))
      end.
End Convert.
