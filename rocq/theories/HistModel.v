(** Model of the methods of Competing_Risks_Model and Mixture_Model on a heap of arrays: Distributions.py 7775-8410 and 8756-9400. *)
From Coq Require Import List Arith Reals Bool.
From Verif Require Import Base Ext DistModel CombModel.
Import ListNotations.
Open Scope R_scope.

(** An array is its values; an address is an index of the heap; new arrays get new addresses. *)
Definition array : Type := list ext.
Definition heap : Type := list array.
Definition contents (h : heap) (a : nat) : array := nth a h [].
Fixpoint set_nth {A} (i : nat) (v : A) (l : list A) : list A :=
  match l, i with
  | [], _ => []
  | _ :: r, O => v :: r
  | x :: r, S i => x :: set_nth i v r
  end.

Inductive model := Competing_Risks (ds : list dist) | Mixture (ds : list dist) (ps : list R).
Inductive func := PDF_ | CDF_ | SF_ | HF_ | CHF_.
(** The arrays made by __combiner. *)
Record arrays := { v_pdf : array; v_cdf : array; v_sf : array; v_hf : array; v_chf : array }.
Fixpoint numbers (X : array) : option (list R) :=
  match X with
  | [] => Some []
  | Fin x :: r => match numbers r with Some l => Some (x :: l) | None => None end
  | _ => None
  end.
(** __combiner (7775-7848, 8756-8840) as a function of the values of xvals. [other]: what it does for xvals with nan or inf. *)
Definition evaluate (other : array -> result arrays) (m : model) (X : array) : result arrays :=
  match numbers X with
  | None => other X
  | Some xs =>
    match m with
    | Competing_Risks ds =>
      let! c := cr_combine ds xs in
      Ok {| v_pdf := map Fin (cr_pdf c); v_cdf := map Fin (cr_cdf c); v_sf := map Fin (cr_sf c); v_hf := cr_hf c; v_chf := cr_chf c |}
    | Mixture ds ps =>
      let! c := mix_combine ds ps xs in
      Ok {| v_pdf := mix_pdf c; v_cdf := map Fin (mix_cdf c); v_sf := map Fin (mix_sf c); v_hf := mix_hf c; v_chf := mix_chf c |}
    end
  end.

(** The attributes self.__xvals, self.__pdf, ..., as addresses. *)
Record fields := { f_xvals : nat; f_pdf : nat; f_cdf : nat; f_sf : nat; f_hf : nat; f_chf : nat }.
Record world := { w_heap : heap; w_fields : option fields }.

(** __combiner with xvals as an array (np.asarray makes no copy: self.__xvals is the array of the caller) or without: then X is a
    new array, [default] (a linspace of attributes that are set once in __init__; with xmin and xmax it is another array). *)
Definition combiner (other : array -> result arrays) (m : model) (default : array) (xvals : option nat) (w : world) : result (world * fields) :=
  let '(h, x) := match xvals with Some a => (w_heap w, a) | None => (w_heap w ++ [default], length (w_heap w)) end in
  let! v := evaluate other m (contents h x) in
  let n := length h in
  let f := {| f_xvals := x; f_pdf := n; f_cdf := n + 1; f_sf := n + 2; f_hf := n + 3; f_chf := n + 4 |} in
  Ok ({| w_heap := h ++ [v_pdf v; v_cdf v; v_sf v; v_hf v; v_chf v]; w_fields := Some f |}, f).

(** self.__pdf[self.__pdf > 1e100] = 1e100, in place. *)
Definition cap (v : ext) : ext :=
  match v with Fin x => if Rlt_dec (10 ^ 100) x then Fin (10 ^ 100) else v | PInf => Fin (10 ^ 100) | NaN => NaN end.
Definition cap_array (a : nat) (w : world) : world :=
  {| w_heap := set_nth a (map cap (contents (w_heap w) a)) (w_heap w); w_fields := w_fields w |}.

Definition field (f : func) (s : fields) : nat :=
  match f with PDF_ => f_pdf s | CDF_ => f_cdf s | SF_ => f_sf s | HF_ => f_hf s | CHF_ => f_chf s end.
(** What a call returns: the array itself, or its only element (unpack_single_arrays, Utils.py 7471-7494). *)
Inductive returned := R_array (a : nat) | R_number (v : ext).
Definition unpack (h : heap) (a : nat) : returned := match contents h a with [v] => R_number v | _ => R_array a end.

(** PDF, CDF, SF, HF, CHF: 8033-8074, 8120-8160, 8205-8243, 8288-8327, 8372-8410 and 9026-9400. The plots of the components and the
    drawing are not modelled; they do not write to the arrays. *)
Definition call (other : array -> result arrays) (m : model) (default : array) (f : func) (xvals : option nat) (show_plot : bool) (w : world)
  : world * result returned :=
  match combiner other m default xvals w with
  | Err e => (w, Err e)
  | Ok (w, s) =>
    let show_plot := if (length (contents (w_heap w) (f_xvals s)) <? 2)%nat then false else show_plot in
    let w := if show_plot then match f with PDF_ => cap_array (f_pdf s) w | HF_ => cap_array (f_hf s) w | _ => w end else w in
    (w, Ok (unpack (w_heap w) (field f s)))
  end.
(** plot: 7876-7950, 8870-8945 *)
Definition plot (other : array -> result arrays) (m : model) (default : array) (xvals : option nat) (w : world) : world * result unit :=
  match combiner other m default xvals w with
  | Err e => (w, Err e)
  | Ok (w, s) => (cap_array (f_hf s) (cap_array (f_pdf s) w), Ok tt)
  end.

(** What a program that uses the model does: make arrays, write into arrays (its own or returned ones), call the methods. *)
Inductive action :=
| A_new (l : array)
| A_write (a i : nat) (v : ext)
| A_call (f : func) (xvals : option nat) (show_plot : bool)
| A_plot (xvals : option nat).
Definition act (other : array -> result arrays) (m : model) (default : array) (w : world) (c : action) : world :=
  match c with
  | A_new l => {| w_heap := w_heap w ++ [l]; w_fields := w_fields w |}
  | A_write a i v => {| w_heap := set_nth a (set_nth i v (contents (w_heap w) a)) (w_heap w); w_fields := w_fields w |}
  | A_call f x s => fst (call other m default f x s w)
  | A_plot x => fst (plot other m default x w)
  end.
Definition run other m default : list action -> world -> world := fold_left (act other m default).
