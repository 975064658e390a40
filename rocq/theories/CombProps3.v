(** Property C55: the hazard and the cumulative hazard of a DSZI model. *)
From Coquelicot Require Import Coquelicot.
From Coq Require Import List Arith Reals Lra Lia Bool.
From Verif Require Import Base RealFacts Gauss Ext RList DistModel DistSpec DistProofs DistProofs2 DistProofs3 DistProofs5
  RepairModel CombModel CombSpec CombProofs CombProofs2 CombProps.
Import ListNotations.
Open Scope R_scope.

Lemma zip_nth {A B C} (f : A -> B -> C) : forall l m i a b, nth_error l i = Some a -> nth_error m i = Some b ->
  nth_error (zip f l m) i = Some (f a b).
Proof.
  induction l as [|x l IH]; intros [|y m] [|i] a b Ha Hb; try discriminate; simpl in *; [congruence|now apply IH].
Qed.

(** The cumulative hazard shown at a time is minus the logarithm of the reliability there, and the hazard shown is its slope. *)
Theorem C55_hazard : forall a b DS ZI d X C i x, dszi_init a b = Ok (DS, ZI) -> valid d -> dszi_CDF DS ZI d X = Ok C ->
  nth_error X i = Some x -> inside d x -> dszi_cdf DS ZI d x < 1 ->
  exists H K h, dszi_HF DS ZI d X = Ok H /\ dszi_CHF DS ZI d X = Ok K /\
    nth_error H i = Some (Fin h) /\ nth_error K i = Some (Fin (- ln (1 - dszi_cdf DS ZI d x))) /\
    is_derive (fun t => - ln (1 - dszi_cdf DS ZI d t)) x h.
Proof.
  intros a b DS ZI d X C i x HI Hv HC Hx Hin H1.
  destruct (C55_arrays DS ZI d X C HC) as (_ & S & P & ES & EP & -> & ->).
  destruct (C55_pdf_mass a b DS ZI d HI Hv) as (D & _). destruct (D x Hin) as (v & Ev & V0 & Dv).
  unfold dszi_HF, dszi_CHF. rewrite ES, EP. cbn [bind].
  eexists. eexists. exists (v / (1 - dszi_cdf DS ZI d x)). split; [reflexivity|]. split; [reflexivity|].
  split; [|split].
  - erewrite zip_nth; [|rewrite nth_error_map, Hx; reflexivity|rewrite nth_error_map, Hx; reflexivity].
    rewrite Ev. unfold ediv. repeat (destruct (Req_EM_T _ _); [lra|]). reflexivity.
  - rewrite map_map, nth_error_map, Hx. cbn [option_map]. f_equal. unfold neg_log. destruct (Rlt_dec 0 (1 - dszi_cdf DS ZI d x)); [reflexivity|lra].
  - set (F := dszi_cdf DS ZI d) in *.
    assert (is_derive (fun t => 1 - F t) x (0 - v)) as D1.
    { apply (is_derive_minus (K := R_AbsRing) (V := R_NormedModule) (fun _ => 1) F); [exact (is_derive_const (K := R_AbsRing) (V := R_NormedModule) 1 x)|exact Dv]. }
    assert (is_derive ln (1 - F x) (/ (1 - F x))) as D2 by (apply is_derive_ln; lra).
    pose proof (is_derive_comp (K := R_AbsRing) (V := R_NormedModule) ln (fun t => 1 - F t) x _ _ D2 D1) as D3.
    apply (is_derive_opp (K := R_AbsRing) (V := R_NormedModule)) in D3.
    replace (v / (1 - F x)) with (opp (scal (0 - v) (/ (1 - F x)))); [exact D3|].
    unfold opp, scal; simpl; unfold mult; simpl. field. lra.
Qed.
Print Assumptions C55_hazard.

Example C55_hazard_case : inside (Weibull 50 2 0) 10 /\ dszi_cdf (9 / 10) (1 / 10) (Weibull 50 2 0) 10 < 1 /\
  exists C, dszi_CDF (9 / 10) (1 / 10) (Weibull 50 2 0) [10; 20] = Ok C.
Proof.
  split; [unfold inside; simpl; repeat split; lra|]. split.
  - destruct (C55_cdf_rises_from_ZI_to_DS _ _ _ _ _ (proj1 C55_case) (proj2 C55_case)) as (_ & R & _). specialize (R 10). lra.
  - unfold dszi_CDF, CDF. rewrite array_ok_intro; [eexists; reflexivity|discriminate| |left; reflexivity].
    right. intros x [<-|[<-|[]]]; lra.
Qed.
