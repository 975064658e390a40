(** What the results tables of the nonparametric estimators should say (C170). *)
From Coquelicot Require Import Coquelicot.
From Coq Require Import List Arith Reals Bool.
Import ListNotations.
Open Scope R_scope.

(** The number of items that had neither failed nor been censored before time t, and of those
    still there after t. *)
Definition there_at (t : R) (items : list R) : nat := length (filter (fun x => if Rle_dec t x then true else false) items).
Definition there_after (t : R) (items : list R) : nat := length (filter (fun x => if Rlt_dec t x then true else false) items).
