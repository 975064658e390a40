(** Numbers as numpy produces them: reals, +inf and nan.  Only the operations that the
    models need are defined; each follows IEEE 754 on the values it is used with. *)
From Coq Require Import Reals Lra.
Open Scope R_scope.

Inductive ext := Fin (r : R) | PInf | NaN.

(** 1 / k for a non-negative integer or real k: numpy gives inf at 0. *)
Definition einv (x : R) : ext := if Req_EM_T x 0 then PInf else Fin (/ x).

(** Addition of values that are never -inf. *)
Definition eadd (a b : ext) : ext :=
  match a, b with
  | Fin x, Fin y => Fin (x + y)
  | NaN, _ | _, NaN => NaN
  | _, _ => PInf
  end.

(** Multiplication of non-negative values: inf * 0 is nan. *)
Definition emul (a b : ext) : ext :=
  match a, b with
  | Fin x, Fin y => Fin (x * y)
  | NaN, _ | _, NaN => NaN
  | Fin x, PInf | PInf, Fin x => if Req_EM_T x 0 then NaN else PInf
  | PInf, PInf => PInf
  end.

(** x ** 0.5 of a non-negative value. *)
Definition esqrt (a : ext) : ext :=
  match a with Fin x => Fin (sqrt x) | PInf => PInf | NaN => NaN end.
