(** The properties C129 and C130: arguments of the fitters and the table of quantiles. *)
From Coquelicot Require Import Coquelicot.
From Coq Require Import String.
From Coq Require Import List Arith Reals Lra Lia Bool.
From Verif Require Import Base RealFacts Ext RList Gauss ConvertModel NonparModel RepairModel DistModel DistSpec DistProofs DistProofs2 CIModel CISpec CIProofs CIProofs2 CIProps SelModel RegProofs ALTProofs
  InputModel InputProofs FArgModel FArgSpec FArgProofs.
Import ListNotations.
Open Scope R_scope.

(** ** C129 Arguments of the fitters *)

(** Exactly which arguments are accepted, and what the fitter works with. *)
Theorem C129_accepts : forall d a k, fitters_input_checking d a = Ok k <->
  exists f rc n, a_failures a = D_seq f /\ (a_right_censored a = D_seq rc \/ (a_right_censored a = D_none /\ rc = [])) /\
    Forall (FArgSpec.in_range d) (f ++ rc) /\ sublist_of (keep d) f (i_failures k) /\ sublist_of (keep d) rc (i_right_censored k) /\
    needed d (a_force_beta a <> None \/ a_force_sigma a <> None) n /\ distinct n (i_failures k) /\
    fst (a_CI a) <> T_int /\ 0 < snd (a_CI a) < 1 /\ i_CI k = snd (a_CI a) /\
    understood method_names (a_method a) (i_method k) /\ understood optimizer_names (a_optimizer a) (i_optimizer k) /\
    understood CI_type_names (a_CI_type a) (i_CI_type k) /\
    ((asks_default (a_quantiles a) /\ i_quantiles k = Q_seq default_quantiles) \/
     (~ asks_default (a_quantiles a) /\ i_quantiles k = a_quantiles a /\ a_quantiles a <> Q_other /\
      forall l, a_quantiles a = Q_seq l -> asks_values (a_quantiles a) l)) /\
    i_force_beta k = a_force_beta a /\ i_force_sigma k = a_force_sigma a /\
    (forall v, a_force_beta a = Some v \/ a_force_sigma a = Some v -> 0 < v).
Proof.
  intros d [F RC M O CI Q fb fs T] [f' rc' m' o' ci' q' fb' fs' t'].
  cbn [a_failures a_right_censored a_method a_optimizer a_CI a_quantiles a_force_beta a_force_sigma a_CI_type
       i_failures i_right_censored i_method i_optimizer i_CI i_quantiles i_force_beta i_force_sigma i_CI_type].
  assert (forall n, needed d (fb <> None \/ fs <> None) n <-> needed d (is_some fb || is_some fs = true) n) as HN.
  { assert (fb <> None \/ fs <> None <-> is_some fb || is_some fs = true) as E
      by (destruct fb, fs; cbn; split; intros H; try reflexivity; try discriminate; try (left; congruence); try (right; congruence); destruct H; congruence).
    intros n. destruct d; cbn; try reflexivity; rewrite E; reflexivity. }
  unfold fitters_input_checking. cbn [a_failures a_right_censored a_method a_optimizer a_CI a_quantiles a_force_beta a_force_sigma a_CI_type]. split.
  - intros H. destruct F as [f| |]; try discriminate. apply bind_ok in H. destruct H as (rc & HR & H). apply bind_ok in H. destruct H as ([f1 rc1] & HD & H).
    apply check_data_spec in HD. destruct HD as (D1 & D2 & D3 & n & D4 & D5). destruct CI as [ct cv]. cbn [fst snd] in *.
    destruct (match ct with T_int => true | _ => false end) eqn:ET; [discriminate|]. destruct (le cv 0 || le 1 cv) eqn:EC; [discriminate|].
    apply orb_false_iff in EC. destruct EC as [EC1 EC2]. apply le_false in EC1, EC2.
    apply bind_ok in H. destruct H as (o & HO & H). apply bind_ok in H. destruct H as (m & HM & H). apply bind_ok in H. destruct H as (q & HQ & H).
    apply bind_ok in H. destruct H as (b & HB & H). apply bind_ok in H. destruct H as (s & HS & H). apply bind_ok in H. destruct H as (t & HT & H).
    injection H as <- <- <- <- <- <- <- <- <-. apply resolve_optimizer_spec in HO. apply resolve_method_spec in HM. apply resolve_CI_type_spec in HT.
    apply resolve_quantiles_spec in HQ. apply check_force_spec in HB. apply check_force_spec in HS. destruct HB as [-> HB]. destruct HS as [-> HS].
    exists f, rc, n. split; [reflexivity|]. split; [destruct RC; try discriminate; injection HR as <-; auto|].
    repeat (split; [assumption|]). split; [now apply HN|]. split; [assumption|]. split; [intros E; subst ct; discriminate|]. split; [lra|].
    repeat (split; [assumption || reflexivity|]). intros v [E|E]; [now apply HB|now apply HS].
  - intros (f & rc & n & -> & HR & D1 & D2 & D3 & D4 & D5 & C1 & C2 & -> & HM & HO & HT & HQ & -> & -> & HF). destruct CI as [ct cv]. cbn [fst snd] in *.
    replace (match RC with D_seq l => Ok l | D_none => Ok [] | D_other => Err ValueError end) with (@Ok (list R) rc) by (destruct HR as [->|[-> ->]]; reflexivity). cbn [bind].
    assert (check_data d (is_some fb || is_some fs) f rc = Ok (f', rc')) as -> by (apply check_data_spec; repeat (split; [assumption|]); exists n; split; [now apply HN|assumption]).
    cbn [bind fst snd]. replace (match ct with T_int => true | _ => false end) with false by (destruct ct; congruence).
    assert (le cv 0 || le 1 cv = false) as -> by (apply orb_false_iff; split; apply le_false; lra).
    apply resolve_optimizer_spec in HO. apply resolve_method_spec in HM. apply resolve_CI_type_spec in HT. apply resolve_quantiles_spec in HQ. rewrite HO, HM, HT, HQ.
    assert (check_force fb = Ok fb) as -> by (apply check_force_spec; split; [reflexivity|auto]). assert (check_force fs = Ok fs) as -> by (apply check_force_spec; split; [reflexivity|auto]).
    reflexivity.
Qed.
Print Assumptions C129_accepts.

(** Anything else is refused with ValueError. *)
Theorem C129_refused : forall d a, (exists k, fitters_input_checking d a = Ok k) \/ fitters_input_checking d a = Err ValueError.
Proof.
  intros d a. destruct (fitters_input_checking d a) as [k|e] eqn:E; [left; eauto|right]. unfold fitters_input_checking in E.
  assert (forall (A B : Type) (r : result A) (k : A -> result B), bind r k = Err e -> r = Err e \/ exists v, r = Ok v /\ k v = Err e) as BE.
  { intros A B [v|e0] k0 H; cbn in H; [right; eauto|left; congruence]. }
  destruct (a_failures a) as [f| |]; try congruence. apply BE in E. destruct E as [E|(rc & _ & E)]; [destruct (a_right_censored a); congruence|].
  apply BE in E. destruct E as [E|(v & _ & E)]; [rewrite check_data_eq in E; repeat match type of E with (if ?b then _ else _) = _ => destruct b end; congruence|].
  repeat match type of E with (if ?b then _ else _) = _ => destruct b; [congruence|] end.
  assert (forall n, resolve_optimizer n = Err e -> e = ValueError) as P1.
  { intros [|s|] H; cbn in H; try congruence. repeat match type of H with (if ?b then _ else _) = _ => destruct b; try congruence end. }
  assert (forall n, resolve_method n = Err e -> e = ValueError) as P2.
  { intros [|s|] H; cbn in H; try congruence. repeat match type of H with (if ?b then _ else _) = _ => destruct b; try congruence end. }
  assert (forall n, resolve_fit_CI_type n = Err e -> e = ValueError) as P3.
  { intros [|s|] H; cbn in H; try congruence. repeat match type of H with (if ?b then _ else _) = _ => destruct b; try congruence end. }
  assert (forall n, resolve_quantiles n = Err e -> e = ValueError) as P4.
  { intros [|[|]|s|l|] H; cbn [resolve_quantiles] in H; try congruence.
    - repeat match type of H with (if ?b then _ else _) = _ => destruct b; try congruence end.
    - destruct l; [congruence|]. repeat match type of H with (if ?b then _ else _) = _ => destruct b; try congruence end. }
  assert (forall n, check_force n = Err e -> e = ValueError) as P5.
  { intros [w|] H; cbn in H; [|discriminate]. destruct (le w 0); congruence. }
  apply BE in E. destruct E as [E|(? & _ & E)]; [f_equal; now apply P1 in E|]. apply BE in E. destruct E as [E|(? & _ & E)]; [f_equal; now apply P2 in E|].
  apply BE in E. destruct E as [E|(? & _ & E)]; [f_equal; now apply P4 in E|]. apply BE in E. destruct E as [E|(? & _ & E)]; [f_equal; now apply P5 in E|].
  apply BE in E. destruct E as [E|(? & _ & E)]; [f_equal; now apply P5 in E|]. apply BE in E. destruct E as [E|(? & _ & E)]; [f_equal; now apply P3 in E|]. discriminate.
Qed.
Print Assumptions C129_refused.

(** Capitals do not matter in the names of methods, optimizers and types of interval, and checking what has been
    checked changes nothing. *)
Definition rewritten (a : fit_args) (m o t : text) : fit_args :=
  mkFit (a_failures a) (a_right_censored a) m o (a_CI a) (a_quantiles a) (a_force_beta a) (a_force_sigma a) t.
Definition same_text (x y : text) : Prop := match x, y with Text s, Text s' => upper s = upper s' | _, _ => x = y end.
Theorem C129_capitals : forall d a m o t, same_text (a_method a) m -> same_text (a_optimizer a) o -> same_text (a_CI_type a) t ->
  fitters_input_checking d (rewritten a m o t) = fitters_input_checking d a.
Proof.
  intros d a m o t Hm Ho Ht. assert (resolve_method m = resolve_method (a_method a)) as E1
    by (destruct (a_method a), m; cbn in Hm; try discriminate; try reflexivity; cbn; now rewrite Hm).
  assert (resolve_optimizer o = resolve_optimizer (a_optimizer a)) as E2
    by (destruct (a_optimizer a), o; cbn in Ho; try discriminate; try reflexivity; cbn; now rewrite Ho).
  assert (resolve_fit_CI_type t = resolve_fit_CI_type (a_CI_type a)) as E3
    by (destruct (a_CI_type a), t; cbn in Ht; try discriminate; try reflexivity; cbn; now rewrite Ht).
  unfold fitters_input_checking, rewritten. cbn [a_failures a_right_censored a_method a_optimizer a_CI a_quantiles a_force_beta a_force_sigma a_CI_type].
  now rewrite E1, E2, E3.
Qed.
Print Assumptions C129_capitals.

Definition as_text (o : option string) : text := match o with Some s => Text s | None => No_text end.
Definition again (k : fit_inputs) : fit_args :=
  mkFit (D_seq (i_failures k)) (D_seq (i_right_censored k)) (as_text (i_method k)) (as_text (i_optimizer k)) (T_float, i_CI k) (i_quantiles k)
    (i_force_beta k) (i_force_sigma k) (as_text (i_CI_type k)).
Theorem C129_again : forall d a k, fitters_input_checking d a = Ok k -> fitters_input_checking d (again k) = Ok k.
Proof.
  intros d a k H. apply C129_accepts in H. destruct H as (f & rc & n & _ & _ & D1 & D2 & D3 & D4 & D5 & C1 & C2 & EC & HM & HO & HT & HQ & EB & ES & HF).
  apply C129_accepts. exists (i_failures k), (i_right_censored k), n. unfold again.
  cbn [a_failures a_right_censored a_method a_optimizer a_CI a_quantiles a_force_beta a_force_sigma a_CI_type fst snd]. rewrite EB, ES, EC.
  assert (forall l m, sublist_of (keep d) l m -> sublist_of (keep d) m m) as SS by (induction 1; [constructor|now constructor|assumption]).
  assert (forall l m x, sublist_of (keep d) l m -> In x m -> In x l) as SI
    by (intros l m x S; induction S; cbn; intros; [contradiction|destruct H0; auto|right; auto]).
  split; [reflexivity|]. split; [now left|]. split.
  { rewrite Forall_forall in *. intros x Hx. apply D1. apply in_app_iff in Hx. apply in_app_iff. destruct Hx as [Hx|Hx]; [left; eapply SI; eassumption|right; eapply SI; eassumption]. }
  split; [eapply SS; eassumption|]. split; [eapply SS; eassumption|]. split; [assumption|]. split; [assumption|]. split; [discriminate|]. split; [assumption|]. split; [reflexivity|].
  assert (forall names a r, (forall u c, In (u, c) names -> In (upper c, c) names) -> understood names a r -> understood names (as_text r) r) as UU.
  { intros names [|s|] r HN HU; cbn in HU; [subst; reflexivity| |contradiction]. destruct HU as (c & Hc & ->). cbn. exists c. split; [eapply HN; exact Hc|reflexivity]. }
  split; [eapply UU; [|exact HM]; intros u c Hc; cbn [In method_names] in Hc; repeat destruct Hc as [Hc|Hc]; try contradiction; injection Hc as <- <-; in_tac|].
  split; [eapply UU; [|exact HO]; intros u c Hc; cbn [In optimizer_names] in Hc; repeat destruct Hc as [Hc|Hc]; try contradiction; injection Hc as <- <-; in_tac|].
  split; [eapply UU; [|exact HT]; intros u c Hc; cbn [In CI_type_names] in Hc; repeat destruct Hc as [Hc|Hc]; try contradiction; injection Hc as <- <-; in_tac|].
  split; [|now split; [|split]]. right. destruct HQ as [[_ ->]|(Q1 & -> & Q2 & Q3)]; [|auto].
  split; [intros [Q|[Q|[Q|Q]]]; discriminate|]. split; [reflexivity|]. split; [discriminate|]. intros l Hl. injection Hl as <-. split; [reflexivity|]. split; [discriminate|].
  unfold default_quantiles. repeat (constructor; [lra|]). constructor.
Qed.
Print Assumptions C129_again.

(** Three different failures, one zero, a confidence level and names in various spellings. *)
Example C129_case : exists k, fitters_input_checking D_Weibull_2P
  (mkFit (D_seq [0; 10; 20; 20]) D_none (Text "mle") (Text "Nelder-Mead") (T_float, 9 / 10) (Q_bool true) None None (Text "rel")) = Ok k.
Proof.
  exists (mkInputs [10; 20; 20] [] (Some "MLE"%string) (Some "nelder-mead"%string) (9 / 10) (Q_seq default_quantiles) None None (Some "reliability"%string)).
  apply C129_accepts. exists [0; 10; 20; 20], [], 2%nat. cbn [a_failures a_right_censored a_method a_optimizer a_CI a_quantiles a_force_beta a_force_sigma a_CI_type
       i_failures i_right_censored i_method i_optimizer i_CI i_quantiles i_force_beta i_force_sigma i_CI_type fst snd app].
  split; [reflexivity|]. split; [right; auto|].
  split; [repeat (constructor; [right; split; [lra|discriminate]|]); constructor|].
  split; [apply so_drop; [intros [[H|H]|[H _]]; try discriminate; lra|]; repeat (apply so_keep; [right; split; [lra|discriminate]|]); constructor|].
  split; [constructor|]. split; [split; [intros [H|H]; congruence|reflexivity]|].
  split; [exists [10; 20]; split; [constructor; [intros [H|[]]; lra|constructor; [intros []|constructor]]|]; split; [intros x; cbn; tauto|reflexivity]|].
  split; [discriminate|]. split; [lra|]. split; [reflexivity|].
  split; [exists "MLE"%string; split; [in_tac|reflexivity]|]. split; [exists "nelder-mead"%string; split; [in_tac|reflexivity]|].
  split; [exists "reliability"%string; split; [in_tac|reflexivity]|]. split; [left; split; [now left|reflexivity]|]. split; [reflexivity|]. split; [reflexivity|].
  intros v [H|H]; discriminate.
Qed.

(** ** C130 The table of quantiles *)

Lemma rows_ok q lo p up t : rows q lo p up = Ok t ->
  length lo = length q /\ length p = length q /\ length up = length q /\ length t = length q /\
  forall i r, nth_error t i = Some r -> r_quantile r = nth i q 0 /\ r_lower r = Some (nth i lo 0) /\ r_point r = nth i p 0 /\ r_upper r = Some (nth i up 0).
Proof.
  revert lo p up t. induction q as [|q qs IH]; intros [|l lo] [|v p] [|u up] t H; cbn in H; try discriminate.
  - injection H as <-. repeat split; cbn; try reflexivity; destruct i; discriminate.
  - apply bind_ok in H. destruct H as (t' & H & E). injection E as <-. destruct (IH _ _ _ _ H) as (A & B & C & D & Q). cbn. repeat (split; [congruence|]).
    intros [|i] r Hr; cbn in Hr; [injection Hr as <-; auto|now apply Q].
Qed.
Lemma rows_total q lo p up : length lo = length q -> length p = length q -> length up = length q -> exists t, rows q lo p up = Ok t.
Proof.
  revert lo p up. induction q as [|q qs IH]; intros [|l lo] [|v p] [|u up] A B C; try discriminate; cbn; [eauto|].
  destruct (IH lo p up) as (t & ->); cbn in *; try congruence. cbn. eauto.
Qed.
Definition is_beta (d : dist) : Prop := match d with DistModel.Beta _ _ => True | _ => False end.
Lemma table_inv gj d s CI q t : quantile_table gj d s CI q = Ok (Some t) ->
  exists qs, q = Q_seq qs /\ quantile_list d qs = Ok (map (ppf d) qs) /\
    ((is_beta d /\ t = map (fun v => mkRow v None (ppf d v) None) qs) \/
     (~ is_beta d /\ exists lo up, extract_CI gj d s F_CDF T_time CI (Some qs) None = Ok (Some (lo, up)) /\ rows qs lo (map (ppf d) qs) up = Ok t)).
Proof.
  destruct q as [|b|st|qs|]; cbn [quantile_table]; try discriminate. intros H. apply bind_ok in H. destruct H as (p & HP & H). exists qs. split; [reflexivity|].
  assert (p = map (ppf d) qs) as ->. { unfold quantile_list in HP. destruct qs; [discriminate|]. destruct (_ || _) in HP; [discriminate|]. now injection HP as <-. }
  split; [exact HP|].
  assert (forall l, map (fun qp : R * R => mkRow (fst qp) None (snd qp) None) (combine l (map (ppf d) l)) = map (fun v => mkRow v None (ppf d v) None) l) as EM
    by (induction l as [|x l IH]; cbn; [reflexivity|now rewrite IH]).
  destruct d as [a b g|m sg|m sg g|lam g|a b g|a b|a b g|m sg]; try (left; split; [exact I|]; injection H as <-; apply EM);
    (right; split; [now intros []|]; apply bind_ok in H; destruct H as ([[lo up]|] & HE & H);
     [apply bind_ok in H; destruct H as (t' & HR & H); injection H as <-; exists lo, up; auto|
      exfalso; unfold extract_CI in HE; apply bind_ok in HE; destruct HE as (? & _ & HE); discriminate HE]).
Qed.

(** One row per quantile asked for, in the order given: the time by which this fraction fails, between its
    two limits. The table of the Beta distribution has no limits. *)
Theorem C130_rows : forall gj d s CI q t, valid d -> 0 < CI < 1 -> (match s with Some c => 0 <= se_a c | None => True end) ->
  quantile_table gj d s CI q = Ok (Some t) ->
  exists qs, q = Q_seq qs /\ map r_quantile t = qs /\
    forall r, In r t -> 0 < r_quantile r < 1 ->
      inside d (r_point r) /\ cdf d (r_point r) = r_quantile r /\
      match d with
      | DistModel.Beta _ _ => r_lower r = None /\ r_upper r = None
      | _ => exists l u, r_lower r = Some l /\ r_upper r = Some u /\ l <= r_point r <= u
      end.
Proof.
  intros gj d s CI q t V HC HS H. apply table_inv in H. destruct H as (qs & -> & _ & H). exists qs. split; [reflexivity|].
  pose proof (all_facts d V) as F. destruct H as [[HB ->]|(HB & lo & up & HE & HR)].
  - split; [rewrite map_map; cbn; apply map_id|]. intros r Hr H01. apply in_map_iff in Hr. destruct Hr as (v & <- & Hv). cbn [r_quantile r_point r_lower r_upper] in *.
    destruct (F_ppf d F v H01) as [I1 E1]. split; [exact I1|]. split; [exact E1|]. destruct d; try contradiction. auto.
  - destruct (rows_ok _ _ _ _ _ HR) as (L1 & L2 & L3 & L4 & N). split.
    { apply nth_ext with 0 0; rewrite map_length; [exact L4|]. intros i Hi. destruct (nth_error t i) as [r|] eqn:E; [|apply nth_error_None in E; lia].
      destruct (N i r E) as (<- & _). rewrite (nth_indep _ 0 (r_quantile (mkRow 0 None 0 None))) by (now rewrite map_length). rewrite map_nth. f_equal. now apply nth_error_nth. }
    intros r Hr H01. apply In_nth_error in Hr. destruct Hr as (i & E). assert (i < length qs)%nat as Hi by (rewrite <- L4; apply nth_error_Some; congruence).
    destruct (N i r E) as (Q1 & Q2 & Q3 & Q4). rewrite (nth_map_lt _ _ _ 0) in Q3 by exact Hi. rewrite <- Q1 in Q3. rewrite Q3.
    destruct (F_ppf d F (r_quantile r) H01) as [I1 E1]. split; [exact I1|]. split; [exact E1|].
    assert (curve d F_CDF (ppf d (r_quantile r)) = nth i qs 0) as EC by (rewrite <- Q1; exact E1).
    destruct (C67_time gj d s F_CDF CI qs lo up i (ppf d (r_quantile r)) V HS HC HE Hi I1 EC) as (_ & _ & B).
    destruct d; try (exfalso; exact (HB I)); exists (nth i lo 0), (nth i up 0); auto.
Qed.
Print Assumptions C130_rows.

(** A larger fraction fails later. *)
Theorem C130_order : forall gj d s CI q t r r', valid d -> quantile_table gj d s CI q = Ok (Some t) -> In r t -> In r' t ->
  0 < r_quantile r -> r_quantile r < r_quantile r' -> r_quantile r' < 1 -> r_point r < r_point r'.
Proof.
  intros gj d s CI q t r r' V H Hr Hr' H0 HL H1.
  assert (forall x, In x t -> r_point x = ppf d (r_quantile x)) as P.
  { apply table_inv in H. destruct H as (qs & -> & _ & [[HB ->]|(HB & lo & up & HE & HR)]).
    - intros x Hx. apply in_map_iff in Hx. destruct Hx as (v & <- & _). reflexivity.
    - destruct (rows_ok _ _ _ _ _ HR) as (L1 & L2 & L3 & L4 & N). intros x Hx. apply In_nth_error in Hx. destruct Hx as (i & E).
      assert (i < length qs)%nat as Hi by (rewrite <- L4; apply nth_error_Some; congruence). destruct (N i x E) as (Q1 & _ & Q3 & _).
      rewrite (nth_map_lt _ _ _ 0) in Q3 by exact Hi. congruence. }
  rewrite (P r Hr), (P r' Hr'). pose proof (all_facts d V) as F. destruct (F_ppf d F (r_quantile r)) as [_ E1]; [lra|]. destruct (F_ppf d F (r_quantile r')) as [_ E2]; [lra|].
  destruct (Rlt_le_dec (ppf d (r_quantile r)) (ppf d (r_quantile r'))) as [L|L]; [exact L|]. pose proof (cdf_incr d V _ _ L). lra.
Qed.
Print Assumptions C130_order.

(** More confidence, wider limits around the same points. *)
Theorem C130_widens : forall gj d s CI CI' q t t' i r r', valid d -> (match s with Some c => 0 <= se_a c | None => True end) -> 0 < CI -> CI <= CI' -> CI' < 1 ->
  quantile_table gj d s CI q = Ok (Some t) -> quantile_table gj d s CI' q = Ok (Some t') -> nth_error t i = Some r -> nth_error t' i = Some r' -> 0 < r_quantile r < 1 ->
  r_quantile r' = r_quantile r /\ r_point r' = r_point r /\
  forall l u l' u', r_lower r = Some l -> r_upper r = Some u -> r_lower r' = Some l' -> r_upper r' = Some u' -> l' <= l /\ u <= u'.
Proof.
  intros gj d s CI CI' q t t' i r r' V HS H0 HCC H1 H H' E E' H01. apply table_inv in H. destruct H as (qs & -> & _ & H). apply table_inv in H'. destruct H' as (qs' & EQ & _ & H').
  injection EQ as <-. destruct H as [[HB ->]|(HB & lo & up & HE & HR)], H' as [[HB' ->]|(HB' & lo' & up' & HE' & HR')]; try contradiction.
  - assert (r = r') as <- by congruence. split; [reflexivity|]. split; [reflexivity|]. intros l u l' u' A B C D. rewrite nth_error_map in E. destruct (nth_error qs i); [|discriminate].
    injection E as <-. discriminate.
  - destruct (rows_ok _ _ _ _ _ HR) as (L1 & L2 & L3 & L4 & N). destruct (rows_ok _ _ _ _ _ HR') as (L1' & L2' & L3' & L4' & N').
    assert (i < length qs)%nat as Hi by (rewrite <- L4; apply nth_error_Some; congruence).
    destruct (N i r E) as (Q1 & Q2 & Q3 & Q4). destruct (N' i r' E') as (Q1' & Q2' & Q3' & Q4'). split; [congruence|]. split; [congruence|].
    intros l u l' u' A B C D. assert (l = nth i lo 0) by congruence. assert (u = nth i up 0) by congruence. assert (l' = nth i lo' 0) by congruence. assert (u' = nth i up' 0) by congruence. subst.
    destruct (is_exponential_dec d) as [(la & g & ->)|Hne].
    + rewrite extract_exp_y in HE, HE'. apply bind_ok in HE. destruct HE as (p & HE & Hp). injection Hp as ->. apply bind_ok in HE'. destruct HE' as (p' & HE' & Hp'). injection Hp' as ->.
      destruct s as [c|]; [|discriminate]. rewrite needs_Some in HE, HE'. apply exp_ci_time in HE, HE'. destruct HE as [-> ->], HE' as [-> ->].
      rewrite !map_map, !(nth_map_lt _ _ _ 0) by exact Hi. cbn in V. cbn [q_of]. rewrite <- Q1.
      set (y := r_quantile r) in *. assert (0 < - ln (1 - y)) as HY. { assert (ln (1 - y) < ln 1) by (apply ln_increasing; lra). rewrite ln_1 in *. lra. }
      pose proof (Z_mono CI CI' H0 HCC H1) as HZ. set (Z := Z_of CI) in *. set (Z' := Z_of CI') in *. set (e := se_a c / la). assert (0 <= e) as He by (apply Rdiv_le_0_compat; lra).
      assert (forall a b, a <= b -> - ln (1 - y) / (la * exp b) <= - ln (1 - y) / (la * exp a)) as MM.
      { intros a b Hab. apply Rmult_le_compat_l; [lra|]. assert (exp a <= exp b) by (destruct Hab as [Hab| ->]; [left; now apply exp_increasing|lra]). pose proof (exp_pos a).
        apply Rinv_le_contravar; nra. }
      split; apply Rplus_le_compat_r, MM; nra.
    + assert (~ is_exponential d) as NE by (intros Q; destruct d; cbn in Q; try contradiction; apply Hne; eauto).
      exact (proj2 (C67_widens gj d s F_CDF CI CI' qs lo up lo' up' i V NE H0 HCC H1 Hi) HE HE').
Qed.
Print Assumptions C130_widens.

(** A table is made when quantiles were asked for, with the quantiles asked for, and no other values: the
    eleven default ones for True, 'auto', 'default' and 'on'. *)
Theorem C130_request : forall gj fit n a o, (forall k, valid (fst (fit k))) -> fitter_quantiles gj fit n a = Ok o ->
  (a_quantiles a = Q_None -> o = None) /\
  (asks_default (a_quantiles a) -> exists t, o = Some t /\ map r_quantile t = default_quantiles) /\
  (forall l, a_quantiles a = Q_seq l -> exists t, o = Some t /\ map r_quantile t = l /\ Forall (fun v => 0 < v < 1) l).
Proof.
  intros gj fit n a o V H. unfold fitter_quantiles in H. apply bind_ok in H. destruct H as (k & HK & H).
  apply C129_accepts in HK. destruct HK as (f & rc & m & _ & _ & _ & _ & _ & _ & _ & _ & _ & _ & _ & _ & _ & HQ & _).
  assert (forall l, i_quantiles k = Q_seq l -> exists t, o = Some t /\ map r_quantile t = l) as TT.
  { intros l El. rewrite El in H. destruct o as [t|].
    - exists t. split; [reflexivity|]. apply table_inv in H. destruct H as (qs & EQ & _ & H). injection EQ as <-. destruct H as [[_ ->]|(_ & lo & up & _ & HR)].
      + rewrite map_map. cbn. apply map_id.
      + destruct (rows_ok _ _ _ _ _ HR) as (L1 & L2 & L3 & L4 & N). apply nth_ext with 0 0; rewrite map_length; [exact L4|]. intros i Hi.
        destruct (nth_error t i) as [r|] eqn:E; [|apply nth_error_None in E; lia].
        destruct (N i r E) as (<- & _). rewrite (nth_indep _ 0 (r_quantile (mkRow 0 None 0 None))) by (now rewrite map_length). rewrite map_nth. f_equal. now apply nth_error_nth.
    - exfalso. cbn [quantile_table] in H. apply bind_ok in H. destruct H as (p & _ & H).
      destruct (fst (fit k)); try discriminate H; apply bind_ok in H; destruct H as ([[lo up]|] & _ & H); try discriminate H; apply bind_ok in H; destruct H as (? & _ & H); discriminate H. }
  split; [|split].
  - intros E. destruct HQ as [[HQ _]|(_ & HQ & _)]; [rewrite E in HQ; destruct HQ as [Q|[Q|[Q|Q]]]; discriminate|]. rewrite HQ, E in H. cbn in H. congruence.
  - intros HD. destruct HQ as [[_ HQ]|(HQ & _)]; [now apply TT|contradiction].
  - intros l E. destruct HQ as [[HQ _]|(_ & HQ & _ & HV)]; [rewrite E in HQ; destruct HQ as [Q|[Q|[Q|Q]]]; discriminate|].
    destruct (TT l) as (t & E1 & E2); [congruence|]. exists t. split; [exact E1|]. split; [exact E2|]. destruct (HV l E) as (_ & _ & HF). exact HF.
Qed.
Print Assumptions C130_request.

(** A documented request is answered: any accepted arguments that ask for the default quantiles or for a list of them
    give a table, for every distribution but the Exponential. A quantile must not be within 1e-50 of 1, which no
    double below 1 is. *)
Lemma clean_total pt rws xg qg : (forall r, In r rws -> exists v, legal_row pt r v) ->
  exists out, clean_CI_arrays (map col1 rws) (map col2 rws) (map col3 rws) (map col4 rws) pt xg qg = Ok (map q_xl out, map q_xu out, map q_yl out, map q_yu out) /\ Forall2 (legal_row pt) rws out.
Proof.
  intros H. destruct (legal_all pt rws H) as (out & HF). exists out. split; [|exact HF].
  rewrite (clean_rows _ _ _ _ _ _ _ _ (keep_finite_rows rws)). cbv zeta. pose proof (legal_rows_fun _ _ _ (filter_legal pt rws) _ (legal_rows_all _ _ _ HF)) as ->.
  rewrite !map_length. assert (length out = length rws) as EL by (clear -HF; induction HF; cbn; congruence). unfold quad in *. rewrite EL, Nat.eqb_refl. reflexivity.
Qed.
Theorem C130_produced_partial : forall gj d c CI qs, valid d -> ~ is_exponential d -> proper_cov c -> 0 < CI < 1 ->
  qs <> [] -> Forall (fun v => 0 < v < 1 - / 10 ^ 50) qs -> exists t, quantile_table gj d (Some c) CI (Q_seq qs) = Ok (Some t).
Proof.
  intros gj d c CI qs V NE PC HC HN HQ. pose proof (tol_small 1 ltac:(lia)) as HT. assert (0 < / 10 ^ 50) as TP by (apply Rinv_0_lt_compat, pow_lt; lra).
  cbn [quantile_table]. assert (quantile_list d qs = Ok (map (ppf d) qs)) as ->.
  { unfold quantile_list. destruct qs as [|q0 qs0]; [congruence|]. rewrite Forall_forall in HQ.
    assert (existsb (fun v => Rltb' v 0) (q0 :: qs0) = false) as ->.
    { apply (existsb_false_Forall _ (fun v => 0 <= v)); [intros x; unfold Rltb'; destruct Rlt_dec; split; intros; try reflexivity; try discriminate; lra|].
      apply Forall_forall. intros x Hx. specialize (HQ x Hx). lra. }
    assert (existsb (fun v => Rltb' 1 v) (q0 :: qs0) = false) as ->.
    { apply (existsb_false_Forall _ (fun v => v <= 1)); [intros x; unfold Rltb'; destruct Rlt_dec; split; intros; try reflexivity; try discriminate; lra|].
      apply Forall_forall. intros x Hx. specialize (HQ x Hx). lra. }
    reflexivity. }
  cbn [bind].
  assert (~ is_beta d -> exists lo up, extract_CI gj d (Some c) F_CDF T_time CI (Some qs) None = Ok (Some (lo, up)) /\ length lo = length qs /\ length up = length qs) as HE.
  { intros NB. assert (exists lo up, ci_time gj d c (Z_of CI) (map (q_of F_CDF) qs) = Ok (lo, up)) as (lo & up & E).
    { unfold ci_time. set (q := map (q_of F_CDF) qs). rewrite !map_map.
      set (rws := map (fun y => (omap fst (time_bounds gj d c (Z_of CI) y), omap snd (time_bounds gj d c (Z_of CI) y), Some y, Some y) : row4) q).
      destruct (clean_total "CDF" rws false true) as (out & E & _).
      - intros r Hr. unfold rws, q in Hr. apply in_map_iff in Hr. destruct Hr as (y & <- & Hy). apply in_map_iff in Hy. destruct Hy as (v & <- & Hv). cbn [q_of].
        rewrite Forall_forall in HQ. specialize (HQ v Hv).
        assert (exists b, time_bounds gj d c (Z_of CI) (1 - v) = Some b) as (b & ->).
        { unfold time_bounds. assert (exists w, v_at gj d (1 - v) = Some w) as ([[w da] db] & ->).
          { unfold v_at. destruct (Rlt_dec 0 (1 - v)); [|lra]. destruct (Rlt_dec (1 - v) 1); [|lra]. destruct d; cbn in NE, NB; try (exfalso; tauto); eauto. }
          cbn [obind]. unfold half_width. destruct (Rlt_dec (var_of c da db) 0) as [N|N]; [pose proof (var_nonneg c da db PC); lra|]. cbn [omap]. eauto. }
        destruct b as [b1 b2]. exists (b1, b2, 1 - v, 1 - v). split; [reflexivity|]. unfold legal_y. split; (split; [|intros _]); lra.
      - unfold rws in E. rewrite !map_map in E. cbn [col1 col2 col3 col4] in E. change (map (fun x => Some x) q) with (map Some q) in E. eexists. eexists. rewrite E. cbn [bind]. reflexivity. }
    exists lo, up. split; [unfold extract_CI; rewrite needs_Some, E; destruct d; cbn in NE, NB; try (exfalso; tauto); reflexivity|].
    apply ci_time_ok in E. rewrite map_length in E. tauto. }
  assert (~ is_beta d -> exists t, (let! b := extract_CI gj d (Some c) F_CDF T_time CI (Some qs) None in
      match b with Some (lo, up) => let! t := rows qs lo (map (ppf d) qs) up in Ok (Some t) | None => Ok (Some (map (fun qp => mkRow (fst qp) None (snd qp) None) (combine qs (map (ppf d) qs)))) end) = Ok (Some t)) as HF.
  { intros NB. destruct (HE NB) as (lo & up & -> & L1 & L2). cbn [bind]. destruct (rows_total qs lo (map (ppf d) qs) up L1 ltac:(apply map_length) L2) as (t & ->). cbn [bind]. eauto. }
  destruct d; try (apply HF; now intros []); eauto.
Qed.
Print Assumptions C130_produced_partial.

(** The Exponential distribution gets a table exactly when the upper limit of its rate is less than ten times
    the rate: bounds on reliability that nobody asked for are computed up to the 99.999 per cent quantile and
    must exceed 1e-50. *)
Lemma exp_grid l g : 0 < l -> 0 <= g -> forall b, b = 5 * ln 10 / l ->
  let t := geomspace (ppf (Exponential l g) (/ 10 ^ 5) - g) (ppf (Exponential l g) (1 - / 10 ^ 5) - g) 200 in
  (forall x, In x t -> 0 < x <= b) /\ In b t.
Proof.
  intros Hl Hg b -> t. assert (0 < / 10 ^ 5 < / 2) as Hp by (split; [apply Rinv_0_lt_compat, pow_lt; lra|apply Rinv_lt_contravar; lra]).
  assert (ppf (Exponential l g) (1 - / 10 ^ 5) - g = 5 * ln 10 / l) as Eb.
  { cbn [ppf]. replace (1 - (1 - / 10 ^ 5)) with (/ 10 ^ 5) by ring. rewrite ln_Rinv by (apply pow_lt; lra). rewrite ln_pow by lra. simpl INR. field. lra. }
  assert (ppf (Exponential l g) (/ 10 ^ 5) - g = - ln (1 - / 10 ^ 5) / l) as Ea by (cbn [ppf]; field; lra).
  assert (0 < - ln (1 - / 10 ^ 5)) as P1. { pose proof (ln_increasing (1 - / 10 ^ 5) 1 ltac:(lra) ltac:(lra)) as Q. rewrite ln_1 in Q. lra. }
  assert (- ln (1 - / 10 ^ 5) < 5 * ln 10) as P2.
  { replace (5 * ln 10) with (- ln (/ 10 ^ 5)) by (rewrite ln_Rinv by (apply pow_lt; lra); rewrite ln_pow by lra; simpl INR; lra). apply Ropp_lt_contravar, ln_increasing; lra. }
  unfold t. rewrite Ea, Eb.
  assert (0 < - ln (1 - / 10 ^ 5) / l) as Pa by (apply Rdiv_lt_0_compat; lra).
  assert (- ln (1 - / 10 ^ 5) / l <= 5 * ln 10 / l) as Pb by (apply Rmult_le_compat_r; [left; now apply Rinv_0_lt_compat|lra]).
  pose proof (geomspace_runs _ _ 198 Pa Pb) as HR. split; [|eapply runs_last_in; exact HR].
  intros x Hx. pose proof (runs_range _ _ _ _ HR Hx). lra.
Qed.
Theorem C130_exponential : forall gj l g c CI qs, valid (Exponential l g) -> 0 <= se_a c -> 0 < CI < 1 -> qs <> [] -> Forall (fun v => 0 < v < 1) qs ->
  let upper_limit := l * exp (Z_of CI * (se_a c / l)) in
  (upper_limit < 10 * l -> exists t, quantile_table gj (Exponential l g) (Some c) CI (Q_seq qs) = Ok (Some t)) /\
  (10 * l <= upper_limit -> quantile_table gj (Exponential l g) (Some c) CI (Q_seq qs) = Err ValueError).
Proof.
  intros gj l g c CI qs [Hl Hg] HS HC HN HQ U. assert (quantile_list (Exponential l g) qs = Ok (map (ppf (Exponential l g)) qs)) as EQ.
  { unfold quantile_list. destruct qs as [|q0 qs0]; [congruence|]. rewrite Forall_forall in HQ.
    assert (existsb (fun v => Rltb' v 0) (q0 :: qs0) = false) as ->.
    { apply (existsb_false_Forall _ (fun v => 0 <= v)); [intros x; unfold Rltb'; destruct Rlt_dec; split; intros; try reflexivity; try discriminate; lra|].
      apply Forall_forall. intros x Hx. specialize (HQ x Hx). lra. }
    assert (existsb (fun v => Rltb' 1 v) (q0 :: qs0) = false) as ->.
    { apply (existsb_false_Forall _ (fun v => v <= 1)); [intros x; unfold Rltb'; destruct Rlt_dec; split; intros; try reflexivity; try discriminate; lra|].
      apply Forall_forall. intros x Hx. specialize (HQ x Hx). lra. }
    reflexivity. }
  cbn [quantile_table]. rewrite EQ. cbn [bind]. rewrite extract_exp_y, needs_Some. unfold exponential_CI. rewrite exp_clean.
  set (t := geomspace _ _ 200). destruct (exp_grid l g Hl Hg _ eq_refl) as [G1 G2]. fold t in G1, G2. pose proof (Z_nonneg CI HC) as HZ.
  destruct (lambda_order l (se_a c) (Z_of CI) Hl HS ltac:(lra)) as (P & A & B). fold U in B.
  assert (0 < ln 10) as L10 by (rewrite <- ln_1; apply ln_increasing; lra).
  assert (/ 10 ^ 50 = exp (- (50 * ln 10))) as ET. { rewrite exp_Ropp. f_equal. replace 50 with (INR 50) by (simpl; lra). rewrite <- ln_pow, exp_ln by (try apply pow_lt; lra). reflexivity. }
  split; intros HU.
  - destruct (clean_total "CDF" (exp_rows l (se_a c) (Z_of CI) t) false true) as (out & E & _).
    + intros r Hr. unfold exp_rows in Hr. apply in_map_iff in Hr. destruct Hr as (x & <- & Hx). specialize (G1 x Hx).
      assert (forall k, 0 < k <= U -> legal_y "CDF" (exp (- k * x))) as LY.
      { intros k Hk. split; [|intros _; rewrite <- exp_0; apply exp_increasing; nra]. rewrite ET. apply exp_increasing.
        assert (k * x <= U * x) by (apply Rmult_le_compat_r; lra).
        assert (U * x <= U * (5 * ln 10 / l)) by (apply Rmult_le_compat_l; lra). assert (U * (5 * ln 10 / l) < 10 * l * (5 * ln 10 / l)) as HU2.
        { apply Rmult_lt_compat_r; [apply Rdiv_lt_0_compat; lra|lra]. } replace (10 * l * (5 * ln 10 / l)) with (50 * ln 10) in HU2 by (field; lra). lra. }
      exists (x, x, exp (- (l * exp (- Z_of CI * (se_a c / l))) * x), exp (- U * x)). split; [reflexivity|]. split; apply LY; lra.
    + rewrite E. cbn [bind].
      match goal with |- exists _, (let! t := rows qs ?lo ?p ?up in _) = _ => destruct (rows_total qs lo p up) as (tt & ET2); [now rewrite !map_length|now rewrite map_length|now rewrite !map_length|] end.
      rewrite ET2. eexists. reflexivity.
  - rewrite clean_illegal; [reflexivity|reflexivity|]. apply Exists_exists. unfold exp_rows. eexists. split; [apply in_map; exact G2|].
    intros [[[v1 v2] v3] v4] (HV & _ & HL). injection HV as _ _ _ <-. fold U in HL. destruct HL as [HL _]. rewrite ET in HL. apply exp_lt_inv in HL.
    assert (10 * l * (5 * ln 10 / l) <= U * (5 * ln 10 / l)) as HU2. { apply Rmult_le_compat_r; [apply Rlt_le, Rdiv_lt_0_compat; lra|lra]. }
    replace (10 * l * (5 * ln 10 / l)) with (50 * ln 10) in HU2 by (field; lra). lra.
Qed.
Print Assumptions C130_exponential.

(** With one failure (a standard error equal to the rate) a confidence of 99.73 per cent is enough. *)
Theorem C130_produced_refuted : exists gj d c CI qs, valid d /\ 0 <= se_a c /\ 0 < CI < 1 /\ qs <> [] /\ Forall (fun v => 0 < v < 1) qs /\
  quantile_table gj d (Some c) CI (Q_seq qs) = Err ValueError.
Proof.
  exists {| gj_um := fun _ => 0; gj_ub := fun _ => 0; gj_vm := fun _ => 0; gj_vb := fun _ => 0 |}, (Exponential 1 0), {| se_a := 1; se_b := 0; cov_ab := 0 |}, (Phi 3 - Phi (- (3))), [5 / 10].
  destruct (Z_of_Phi 3 ltac:(lra)) as [HC HZ].
  assert (10 <= exp 3) as H10.
  { replace 3 with (INR 6 * / 2) by (simpl; lra). replace (exp (INR 6 * / 2)) with (exp (/ 2) ^ 6). 2:{ rewrite <- (Rpower_pow 6 (exp (/ 2))) by apply exp_pos. unfold Rpower. now rewrite ln_exp. }
    pose proof (exp_ineq1_le (/ 2)). apply Rle_trans with ((3 / 2) ^ 6); [lra|]. apply pow_incr. lra. }
  assert (Forall (fun v => 0 < v < 1) [5 / 10]) as HF by (constructor; [lra|constructor]).
  split; [cbn [valid]; lra|]. split; [cbn [se_a]; lra|]. split; [exact HC|]. split; [discriminate|]. split; [exact HF|].
  apply C130_exponential; [cbn [valid]; lra|cbn [se_a]; lra|exact HC|discriminate|exact HF|].
  cbn [se_a]. rewrite HZ. replace (3 * (1 / 1)) with 3 by lra. lra.
Qed.
Print Assumptions C130_produced_refuted.

(** The documentation of the argument says that no table is made for False. It is refused after the fit, as is every string but the three
    that are understood. *)
Theorem C130_false_refuted : forall gj fit n a k, fitters_input_checking n a = Ok k ->
  a_quantiles a = Q_bool false \/ (exists s, a_quantiles a = Q_str s /\ s <> "auto"%string /\ s <> "default"%string /\ s <> "on"%string) ->
  fitter_quantiles gj fit n a = Err ValueError.
Proof.
  intros gj fit n a k HK HQ. unfold fitter_quantiles. rewrite HK. cbn [bind]. apply C129_accepts in HK.
  destruct HK as (f & rc & m & _ & _ & _ & _ & _ & _ & _ & _ & _ & _ & _ & _ & _ & K & _).
  destruct HQ as [E|(s & E & N1 & N2 & N3)]; rewrite E in K; (destruct K as [[K _]|(_ & -> & _)]; [destruct K as [K|[K|[K|K]]]; congruence|]); reflexivity.
Qed.
Print Assumptions C130_false_refuted.

Example C130_case : exists gj d c t, valid d /\ proper_cov c /\ 0 <= se_a c /\ quantile_table gj d (Some c) (95 / 100) (Q_seq [5 / 10; 1 / 10]) = Ok (Some t).
Proof.
  exists {| gj_um := fun _ => 0; gj_ub := fun _ => 0; gj_vm := fun _ => 0; gj_vb := fun _ => 0 |}, (Weibull 100 2 0), {| se_a := 3; se_b := 1; cov_ab := 1 |}.
  assert (proper_cov {| se_a := 3; se_b := 1; cov_ab := 1 |}) as PC by (unfold proper_cov; cbn; rewrite Rabs_right; lra).
  assert (/ 10 ^ 50 < 1 / 10) as HT. { pose proof (tol_small 2 ltac:(lia)). simpl in *. lra. }
  destruct (C130_produced_partial {| gj_um := fun _ => 0; gj_ub := fun _ => 0; gj_vm := fun _ => 0; gj_vb := fun _ => 0 |} (Weibull 100 2 0) {| se_a := 3; se_b := 1; cov_ab := 1 |} (95 / 100) [5 / 10; 1 / 10]) as (t & Ht).
  - cbn; lra.
  - now intros [].
  - exact PC.
  - lra.
  - discriminate.
  - repeat (constructor; [lra|]). constructor.
  - exists t. split; [cbn; lra|]. split; [exact PC|]. split; [cbn; lra|exact Ht].
Qed.
