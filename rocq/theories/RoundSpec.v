(** What a reader takes from a number written as text. *)
From Coq Require Import ZArith Reals.
From Coq Require Import String.
From Coq Require Import List.
From Verif Require Import Ext RoundModel.
Import ListNotations.
Open Scope R_scope.

(** The number a text says. *)
Definition says (s : shown) : option R :=
  match s with
  | Whole z => Some (IZR z)
  | Plain x => Some x
  | Places k z => Some (IZR z / 10 ^ k)
  | Sci k z e => Some (IZR z / 10 ^ k * powerRZ 10 e)
  | Special _ => None
  end.
(** A number without decimals. *)
Definition integral (x : R) : Prop := exists z, x = IZR z.
(** Sizes that are written out in decimals rather than as powers of ten, by default. *)
Definition ordinary (x : R) : Prop := / 10 ^ 4 < Rabs x < 10 ^ 9.
(** The examples in the documentation of the function (decimals = 5): Utils.py 105-117. *)
Definition documented : list (R * shown) :=
  [ (Ropp (10 ^ 20), Sci 0 (-1) 20); (Ropp (10 ^ 8), Whole (-100000000)); (Ropp 10, Whole (-10));
    (Ropp (54857485 / 10 ^ 12), Sci 5 (-548575) (-5)); (Ropp (254875415 / 10 ^ 24), Sci 5 (-254875) (-16));
    (0, Whole 0); (254875415 / 10 ^ 24, Sci 5 254875 (-16)); (54857485 / 10 ^ 12, Sci 5 548575 (-5));
    (10, Whole 10); (10 ^ 8, Whole 100000000); (10 ^ 20, Sci 0 1 20) ].
