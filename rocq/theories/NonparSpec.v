(** Specification of the nonparametric estimators. *)
From Coq Require Import List Arith Reals Bool Permutation Sorted.
From Verif Require Import Base Ext NonparModel.
Import ListNotations.
Open Scope R_scope.

Definition n_failed (rows : list row) : nat := length (filter snd rows).

(** The heuristic constant actually used. *)
Definition a_value (a : option R) : R := match a with None => 3 / 10 | Some a => a end.

(** Items still under observation just before t, and failures at t. *)
Definition at_risk (data : list row) (t : R) : nat :=
  length (filter (fun r => if Rle_dec t (fst r) then true else false) data).
Definition deaths (data : list row) (t : R) : nat :=
  length (filter (fun r => snd r && if Req_EM_T (fst r) t then true else false) data).

Definition prod (l : list R) : R := fold_right Rmult 1 l.
Definition sum (l : list R) : R := fold_right Rplus 0 l.

(** The product limit estimator at t: the product over the distinct failure times up to t. *)
Definition product_limit (data : list row) (t : R) : R :=
  prod (map (fun tj => 1 - INR (deaths data tj) / INR (at_risk data tj))
         (nodup Req_EM_T
            (filter (fun tj => if Rle_dec tj t then true else false)
               (map fst (filter snd data))))).

(** Among equal times the failures come before the censored items, which is the order a
    stable sort produces because failures are placed before the censored data. *)
Definition failures_first (rows : list row) : Prop :=
  forall pre t post, rows = pre ++ (t, false) :: post -> ~ In (t, true) post.

(** Two limits that are numbers in [0,1] around x. *)
Definition brackets (lo : ext) (x : R) (up : ext) : Prop :=
  exists l u, lo = Fin l /\ up = Fin u /\ 0 <= l <= x /\ x <= u <= 1.

(** A list that never increases. *)
Definition non_increasing (l : list R) : Prop := StronglySorted (fun x y => y <= x) l.

(** Nelson-Aalen: the sum over the failures among [items] of 1/(items still at risk), where
    [later] more items come after them. *)
Fixpoint hazard_sum (later : nat) (items : list row) : R :=
  match items with
  | [] => 0
  | (_, failed) :: rest =>
      (if failed then 1 / INR (S (length rest + later)) else 0) + hazard_sum later rest
  end.
