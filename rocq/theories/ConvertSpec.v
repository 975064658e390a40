(** What the three formats mean, independently of how the converters work.

    A data set is a multiset of observations: a time together with [true] (it failed)
    or [false] (it was right censored).  Multisets are lists up to [Permutation]. *)
From Coq Require Import List ZArith Permutation Bool Sorted String.
Local Open Scope list_scope.
From Verif Require Import Base ConvertModel.
Import ListNotations.

Section Meaning.
  Context {T : Type}.

  Definition obs : Type := (T * bool)%type.

  Definition opt_list {A} (o : option (list A)) : list A :=
    match o with None => [] | Some l => l end.

  (** FR: two lists of times. *)
  Definition fr_obs (f : list T) (r : option (list T)) : list obs :=
    map (fun x => (x, true)) f ++ map (fun x => (x, false)) (opt_list r).

  (** n copies of each value. *)
  Fixpoint copies {A} (xs : list A) (ns : list Z) : list A :=
    match xs, ns with
    | x :: xs', n :: ns' => repeat x (Z.to_nat n) ++ copies xs' ns'
    | _, _ => []
    end.

  (** FNRN: values with multiplicities. *)
  Definition fnrn_obs (f : list T) (nf : list Z) (r : option (list T))
      (nr : option (list Z)) : list obs :=
    map (fun x => (x, true)) (copies f nf) ++
    map (fun x => (x, false)) (copies (opt_list r) (opt_list nr)).

  (** XCN under a reading [is_failure] of the codes. *)
  Definition xcn_obs (is_failure : code -> bool) (X : list T) (C : list code)
      (N : list Z) : list obs :=
    copies (combine X (map is_failure C)) N.

  (** Canonical FNRN columns: strictly increasing values, counts at least one. *)
  Definition canonical (leb : T -> T -> bool) (xs : list T) (ns : list Z) : Prop :=
    List.length xs = List.length ns /\
    StronglySorted (fun x y => leb x y = true /\ x <> y) xs /\
    Forall (fun n => (1 <= n)%Z) ns.
End Meaning.

(** The pairs of codes for which the formats can be told apart after upper-casing and
    after numpy has made the column homogeneous. *)
Definition codes_ok (censor_code failure_code : code) : Prop :=
  code_upper failure_code <> code_upper censor_code /\
  is_str failure_code = is_str censor_code.

(** The lists of common codes in the documentation of XCN_to_FR ("If the censor code is
    not specified, ..."), upper-cased. *)
Definition documented_failure_codes : list code :=
  [CStr "F"; CStr "FAIL"; CStr "FAILED"; CStr "FAILURE"; CNum 0]%string.
Definition documented_censored_codes : list code :=
  [CStr "R"; CStr "RC"; CStr "RIGHT CENS"; CStr "RIGHT CENSORED"; CStr "C";
   CStr "CENSORED"; CStr "CENS"; CStr "S"; CStr "SUSP"; CStr "SUSPENSION";
   CStr "SUSPENDED"; CStr "UF"; CStr "UNFAILED"; CStr "UNFAIL"; CStr "NF";
   CStr "NO FAIL"; CStr "NO FAILURE"; CStr "NOT FAILED"; CNum 1]%string.

(** What a code in column C means, given the optional custom codes: custom codes win,
    and then the documented lists of common codes apply.  Case is ignored. *)
Definition means_failure (failure_code censor_code : option code) (c : code) : Prop :=
  Some (code_upper c) = option_map code_upper failure_code \/
  (Some (code_upper c) <> option_map code_upper censor_code /\
   In (code_upper c) documented_failure_codes).

Definition means_censored (failure_code censor_code : option code) (c : code) : Prop :=
  Some (code_upper c) <> option_map code_upper failure_code /\
  (Some (code_upper c) = option_map code_upper censor_code \/
   In (code_upper c) documented_censored_codes).

Definition means (failure_code censor_code : option code) (c : code) (b : bool) : Prop :=
  if b then means_failure failure_code censor_code c
  else means_censored failure_code censor_code c.

(** At most two different codes, as numpy sees the column. *)
Definition at_most_two_codes (C : list code) : Prop :=
  exists a b, forall c, In c (np_coerce (map code_upper C)) -> c = a \/ c = b.
