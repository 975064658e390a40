(** The properties C124 and C125 of the x values and arguments of the distribution methods. *)
From Coquelicot Require Import Coquelicot.
From Coq Require Import String.
From Coq Require Import List Arith Reals Lra Lia Bool Sorted.
From Verif Require Import Base ConvertModel RealFacts Ext Gauss DistModel DistSpec DistProofs DistProofs2 RepairModel CIModel SelModel PlotProofs QQProofs RegProofs ALTProofs CIProofs
  InputModel InputSpec InputProofs.
Import ListNotations.
Open Scope R_scope.

Lemma runs_plot_range a b X : runs a b X -> length X = 200%nat -> plot_range a b X.
Proof. intros (S & (r & E) & L) Hl. split; [exact Hl|]. split; [exact S|]. split; [now rewrite E|exact L]. Qed.
Lemma half_positive d : half_line d <-> positive_family d.
Proof. unfold half_line. destruct d; cbn; split; intros H; try exact I; try (destruct H; congruence); try contradiction; split; congruence. Qed.

(** ** C124 The default x values are 200 rising values over the range asked for *)

(** Missing from the full statement: a negative xmax, a lower limit between just below the
    location and the 0.01 per cent quantile, an upper limit equal to that quantile and a lower
    limit equal to the 99 per cent quantile, see C124_leaves. *)
Theorem C124_half_line_partial : forall d xmin xmax, valid d -> half_line d ->
  let a := lower xmin xmax 0 (ppf d (9999 / 10000)) in let b := upper_limit xmin xmax 0 (ppf d (9999 / 10000)) in
  let QL := ppf d (1 / 10000) in let QU := ppf d (99 / 100) in
  0 <= a -> ~ (a < QL /\ b = QL) -> ~ (a = QU /\ QU < b) ->
  (location d = 0 \/ a <= location d - / 10 ^ 8 \/ QL < a \/ b < QL \/ (QL <= a /\ b <= QU)) ->
  exists X, generate_X_array d xmin xmax = Ok X /\ plot_range a b X.
Proof.
  intros d xmin xmax V HL a b QL QU H0 S1 S2 S3. apply half_positive in HL.
  assert (location d = dist_gamma d) as EL by (destruct d; reflexivity).
  assert (generate_X_array d xmin xmax = Ok (grid_positive d a b)) as ->.
  { assert (a <= or_default xmin 0) as Ha by apply Rmin_l. 
    unfold generate_X_array. destruct (exchanged_spec (or_default xmin 0) (or_default xmax (ppf d (9999 / 10000)))) as (lo & hi & -> & E1 & E2 & _).
    assert (lo = a) as -> by exact E1. assert (hi = b) as -> by exact E2. clear E1 E2.
    assert (lt (or_default xmin 0) 0 = false) as E by (apply lt_false; lra).
    destruct d; cbn in HL; try contradiction; rewrite E; reflexivity. }
  eexists. split; [reflexivity|]. apply runs_plot_range; [|apply grid_positive_length]. apply grid_positive_runs; try assumption.
  - unfold a, b, lower, upper_limit. eapply Rle_trans; [apply Rmin_l|apply Rmax_l].
  - unfold grid_safe. rewrite <- EL. now split; [|split].
Qed.
Print Assumptions C124_half_line_partial.

(** The conditions are exact: otherwise a point leaves the range. *)
Theorem C124_leaves : forall d xmin xmax, valid d -> half_line d ->
  let a := lower xmin xmax 0 (ppf d (9999 / 10000)) in let b := upper_limit xmin xmax 0 (ppf d (9999 / 10000)) in
  let QL := ppf d (1 / 10000) in let QU := ppf d (99 / 100) in
  0 <= a ->
  ~ (~ (a < QL /\ b = QL) /\ ~ (a = QU /\ QU < b) /\
     (location d = 0 \/ a <= location d - / 10 ^ 8 \/ QL < a \/ b < QL \/ (QL <= a /\ b <= QU))) ->
  exists X x, generate_X_array d xmin xmax = Ok X /\ In x X /\ (x < a \/ b < x).
Proof.
  intros d xmin xmax V HL a b QL QU H0 N. apply half_positive in HL.
  assert (location d = dist_gamma d) as EL by (destruct d; reflexivity).
  assert (generate_X_array d xmin xmax = Ok (grid_positive d a b)) as ->.
  { assert (a <= or_default xmin 0) as Ha by apply Rmin_l. 
    unfold generate_X_array. destruct (exchanged_spec (or_default xmin 0) (or_default xmax (ppf d (9999 / 10000)))) as (lo & hi & -> & E1 & E2 & _).
    assert (lo = a) as -> by exact E1. assert (hi = b) as -> by exact E2. clear E1 E2.
    assert (lt (or_default xmin 0) 0 = false) as E by (apply lt_false; lra).
    destruct d; cbn in HL; try contradiction; rewrite E; reflexivity. }
  destruct (grid_positive_leaves d a b V HL H0) as (x & Hx & Hr).
  - unfold a, b, lower, upper_limit. eapply Rle_trans; [apply Rmin_l|apply Rmax_l].
  - intros G. apply N. rewrite EL. exact G.
  - eauto.
Qed.
Print Assumptions C124_leaves.

(** With no limits given. *)
Theorem C124_default : forall d, valid d -> half_line d -> location d = 0 \/ / 10 ^ 8 <= location d ->
  exists X, generate_X_array d None None = Ok X /\ plot_range 0 (ppf d (9999 / 10000)) X.
Proof.
  intros d V HL Hg. pose proof HL as HP. apply half_positive in HP. destruct (quantiles_order d V HP) as (G0 & G1 & G2).
  assert (ppf d (99 / 100) <= ppf d (9999 / 10000)) as G3 by (apply ppf_le; [exact V|lra|lra|lra]).
  assert (lower None None 0 (ppf d (9999 / 10000)) = 0) as E1 by (apply Rmin_left; lra).
  assert (upper_limit None None 0 (ppf d (9999 / 10000)) = ppf d (9999 / 10000)) as E2 by (apply Rmax_right; lra).
  destruct (C124_half_line_partial d None None V HL) as (X & E & P).
  - rewrite E1. lra.
  - rewrite E2. lra.
  - rewrite E1. lra.
  - rewrite E1. destruct Hg as [Hg|Hg]; [now left|right; left; lra].
  - exists X. split; [exact E|]. now rewrite E1, E2 in P.
Qed.
Print Assumptions C124_default.

(** Normal and Gumbel: from 0 if the range asked for starts above 0 but not above the 0.01 per
    cent quantile. *)
Theorem C124_signed : forall d xmin xmax, valid d -> supp_lo d = m_infty ->
  let a := lower xmin xmax (ppf d (1 / 10000)) (ppf d (9999 / 10000)) in
  let b := upper_limit xmin xmax (ppf d (1 / 10000)) (ppf d (9999 / 10000)) in
  exists X, generate_X_array d xmin xmax = Ok X /\
    plot_range (if Rlt_dec 0 a then if Rle_dec a (ppf d (1 / 10000)) then 0 else a else a) b X.
Proof.
  intros d xmin xmax V HL a b. assert (a <= b) as L by (eapply Rle_trans; [apply Rmin_l|apply Rmax_l]).
  assert (exists X, generate_X_array d xmin xmax = Ok X /\ X = if (le a 0 || lt (ppf d (1 / 10000)) a)%bool then linspace a b 200 else 0 :: linspace a b 199) as (X & -> & E).
  { unfold generate_X_array. destruct (exchanged_spec (or_default xmin (ppf d (1 / 10000))) (or_default xmax (ppf d (9999 / 10000)))) as (lo & hi & -> & E1 & E2 & _).
    assert (lo = a) as -> by exact E1. assert (hi = b) as -> by exact E2. clear E1 E2.
    destruct d; cbn in HL; try discriminate; destruct (le a 0 || lt _ a)%bool; eauto. }
  exists X. split; [reflexivity|]. rewrite E. clear E.
  destruct (le a 0 || lt (ppf d (1 / 10000)) a)%bool eqn:B.
  - assert ((if Rlt_dec 0 a then if Rle_dec a (ppf d (1 / 10000)) then 0 else a else a) = a) as ->.
    { destruct (Rlt_dec 0 a); [|reflexivity]. destruct (Rle_dec a _); [|reflexivity]. bools; lra. }
    apply runs_plot_range; [now apply (linspace_runs a b 198)|apply linspace_length].
  - bools. destruct (Rlt_dec 0 a); [|lra]. destruct (Rle_dec a _); [|lra].
    apply runs_plot_range; [|cbn [length]; now rewrite linspace_length]. apply runs_cons with a; [now apply (linspace_runs a b 197)|lra].
Qed.
Print Assumptions C124_signed.

Theorem C124_beta : forall a b xmin xmax, 
  let lo := lower xmin xmax 0 1 in let hi := upper_limit xmin xmax 0 1 in
  (match xmax with Some v => v <= 1 | None => True end ->
   exists X, generate_X_array (DistModel.Beta a b) xmin xmax = Ok X /\ plot_range lo hi X) /\
  (match xmax with Some v => 1 < v | None => False end -> generate_X_array (DistModel.Beta a b) xmin xmax = Err ValueError).
Proof.
  intros a b xmin xmax lo hi. assert (lo <= hi) as L by (eapply Rle_trans; [apply Rmin_l|apply Rmax_l]). split; intros H; unfold generate_X_array.
  - assert (lt 1 (or_default xmax 1) = false) as -> by (apply lt_false; destruct xmax; cbn in *; lra).
    destruct (exchanged_spec (or_default xmin 0) (or_default xmax 1)) as (u & v & -> & E1 & E2 & _).
    assert (u = lo) as -> by exact E1. assert (v = hi) as -> by exact E2.
    eexists. split; [reflexivity|]. apply runs_plot_range; [now apply (linspace_runs lo hi 198)|apply linspace_length].
  - assert (lt 1 (or_default xmax 1) = true) as -> by (apply lt_spec; destruct xmax; cbn in *; [exact H|contradiction]). reflexivity.
Qed.
Print Assumptions C124_beta.

(** Values outside the support although limits inside were asked for, and limits outside the
    support that are not refused. *)
Theorem C124_refuted :
  (exists d xmin xmax X x, valid d /\ half_line d /\ location d < xmin < xmax /\
     generate_X_array d (Some xmin) (Some xmax) = Ok X /\ In x X /\ x < location d) /\
  (exists d X x, valid d /\ half_line d /\ generate_X_array d None (Some (-5)) = Ok X /\ In x X /\ x < 0) /\
  (exists d X x, valid d /\ supp_hi d = Finite 1 /\ generate_X_array d (Some 3) None = Ok X /\ In x X /\ 1 < x).
Proof.
  split; [|split].
  - assert (valid (Exponential 1 1)) as V by (cbn; lra). assert (half_line (Exponential 1 1)) as HL by (split; cbn; congruence).
    assert (0 < - ln (1 - 1 / 10000)) as HLn by (rewrite <- ln_Rinv by lra; rewrite <- ln_1; apply ln_increasing; [lra|]; apply Rmult_lt_reg_r with (1 - 1 / 10000); [lra|]; rewrite Rinv_l by lra; lra).
    set (QL := ppf (Exponential 1 1) (1 / 10000)). assert (QL = - ln (1 - 1 / 10000) * (1 / 1) + 1) as EQ by reflexivity.
    assert (1 < QL) as H1 by (rewrite EQ; lra).
    set (a := (1 + QL) / 2). assert (1 < a < QL) as H2 by (unfold a; lra).
    assert (generate_X_array (Exponential 1 1) (Some a) (Some (QL + 1)) = Ok (grid_positive (Exponential 1 1) a (QL + 1))) as E.
    { cbn [generate_X_array or_default]. assert (lt a 0 = false) as -> by (apply lt_false; lra). unfold exchanged. destruct (Rlt_dec (QL + 1) a); [lra|reflexivity]. }
    exists (Exponential 1 1), a, (QL + 1), (grid_positive (Exponential 1 1) a (QL + 1)), (just_below 1).
    split; [exact V|]. split; [exact HL|]. split; [cbn; lra|]. split; [exact E|].
    pose proof tiny_pos. split; [|unfold just_below; cbn; lra].
    unfold grid_positive. fold QL. cbn [dist_gamma].
    assert (((lt a QL && lt (QL + 1) QL) || (le QL a && le (QL + 1) (ppf (Exponential 1 1) (99 / 100))) || (lt (ppf (Exponential 1 1) (99 / 100)) a && lt (ppf (Exponential 1 1) (99 / 100)) (QL + 1)))%bool = false) as ->.
    { destruct (quantiles_order _ V (proj1 (half_positive _) HL)) as (_ & _ & G). fold QL in G.
      apply orb_false_iff. split; [apply orb_false_iff; split|]; apply andb_false_iff; rewrite ?lt_false, ?le_false; lra. }
    assert (lt QL a && lt a (ppf (Exponential 1 1) (99 / 100)) && lt (ppf (Exponential 1 1) (99 / 100)) (QL + 1) = false)%bool as ->.
    { apply andb_false_iff. rewrite andb_false_iff, !lt_false. lra. }
    destruct (Req_EM_T 1 0); [lra|]. destruct (lt a QL && _ && _)%bool, (is_zero _); right; left; reflexivity.
  - assert (valid (Exponential 1 0)) as V by (cbn; lra). assert (half_line (Exponential 1 0)) as HL by (split; cbn; congruence).
    destruct (quantiles_order _ V (proj1 (half_positive _) HL)) as (_ & G & _). cbn [dist_gamma] in G.
    exists (Exponential 1 0), (linspace (-5) 0 200), (-5). split; [exact V|]. split; [exact HL|]. split.
    + cbn [generate_X_array or_default]. assert (lt 0 0 = false) as -> by (apply lt_false; lra). unfold exchanged. destruct (Rlt_dec (-5) 0); [|lra].
      unfold grid_positive. assert (lt (-5) (ppf (Exponential 1 0) (1 / 10000)) = true) as -> by (apply lt_spec; lra).
      assert (lt 0 (ppf (Exponential 1 0) (1 / 10000)) = true) as -> by (apply lt_spec; lra). reflexivity.
    + split; [|lra]. destruct (linspace_runs (-5) 0 198) as (_ & (r & E) & _); [lra|]. rewrite E. now left.
  - exists (DistModel.Beta 2 2), (linspace 1 3 200), 3. split; [cbn; lra|]. split; [reflexivity|]. split.
    + cbn [generate_X_array or_default]. assert (lt 1 1 = false) as -> by (apply lt_false; lra). unfold exchanged. destruct (Rlt_dec 1 3); [reflexivity|lra].
    + split; [|lra]. apply (runs_last_in 1). apply (linspace_runs 1 3 198). lra.
Qed.
Print Assumptions C124_refuted.

(** With no limits given, the values from the 0.01 to the 99 per cent quantile, at least 173 of them,
    have equal steps if the density vanishes at the location and otherwise equal ratios of the
    distances from the location; so have the 25 last ones. *)
Theorem C124_spacing : forall d X, valid d -> half_line d -> generate_X_array d None None = Ok X ->
  exists before middle after, X = before ++ middle ++ after /\ (173 <= length middle)%nat /\ (25 <= length after)%nat /\
    (forall x, In x before -> x < ppf d (1 / 10000)) /\ (forall x, In x after -> ppf d (99 / 100) <= x) /\
    nth 0 middle 0 = ppf d (1 / 10000) /\ last middle 0 = ppf d (99 / 100) /\
    (pdf d (location d) = Fin 0 -> equal_steps middle) /\
    (pdf d (location d) <> Fin 0 -> equal_ratios (location d) middle) /\
    equal_ratios (location d) after.
Proof.
  intros d X V HL E. apply half_positive in HL. destruct (quantiles_order d V HL) as (G0 & G1 & G2).
  assert (location d = dist_gamma d) as EL by (destruct d; reflexivity). rewrite EL, <- pdf0_location by assumption.
  assert (ppf d (99 / 100) < ppf d (9999 / 10000)) as G3.
  { pose proof (all_facts d V) as F. destruct (F_ppf d F (99 / 100)) as [_ E1]; [lra|]. destruct (F_ppf d F (9999 / 10000)) as [_ E2]; [lra|].
    destruct (Rlt_le_dec (ppf d (99 / 100)) (ppf d (9999 / 10000))) as [L|L]; [exact L|]. pose proof (cdf_incr d V _ _ L). lra. }
  assert (X = grid_positive d 0 (ppf d (9999 / 10000))) as ->.
  { unfold generate_X_array in E. cbn [or_default] in E. assert (lt 0 0 = false) as E0 by (apply lt_false; lra). rewrite E0 in E.
    assert (exchanged 0 (ppf d (9999 / 10000)) = (0, ppf d (9999 / 10000))) as EX by (unfold exchanged; destruct Rlt_dec; [lra|reflexivity]).
    destruct d; cbn in HL; try contradiction; rewrite EX in E; injection E as <-; reflexivity. }
  clear E. unfold grid_positive. set (QL := ppf d (1 / 10000)) in *. set (QU := ppf d (99 / 100)) in *. set (b := ppf d (9999 / 10000)) in *. set (g := dist_gamma d) in *.
  assert (lt b QL = false) as -> by (apply lt_false; lra). assert (le QL 0 = false) as -> by (apply le_false; lra). assert (lt QU 0 = false) as -> by (apply lt_false; lra).
  rewrite !andb_false_r. cbn [andb orb].
  assert (lt b QU = false) as -> by (apply lt_false; lra). rewrite !andb_false_r. assert (lt QL 0 = false) as -> by (apply lt_false; lra). cbn [andb].
  pose proof tiny_pos as TP.
  assert (is_zero (pdf0 d) = true <-> pdf0 d = Fin 0) as IZ.
  { unfold is_zero. destruct (pdf0 d) as [v| |]; [|split; discriminate|split; discriminate]. destruct (Req_EM_T v 0) as [->|N]; split; intros; try reflexivity; [discriminate|congruence]. }
  assert (forall n m, let aft := geomspace_from g QU b (S (S m)) in
    (forall x, In x aft -> QU <= x) /\ equal_ratios g aft /\ length aft = S (S m) /\
    (forall mid, mid = (if is_zero (pdf0 d) then linspace QL QU (S (S n)) else geomspace_from g QL QU (S (S n))) ->
       length mid = S (S n) /\ nth 0 mid 0 = QL /\ last mid 0 = QU /\ (pdf0 d = Fin 0 -> equal_steps mid) /\ (pdf0 d <> Fin 0 -> equal_ratios g mid))) as K.
  { intros n m aft. split; [|split; [|split]].
    - intros x Hx. apply (runs_range _ _ _ _ (geomspace_from_runs g QU b m ltac:(lra) ltac:(lra)) Hx).
    - apply geomspace_from_ratios. lia.
    - unfold aft, geomspace_from, geomspace. now rewrite !map_length, seq_length.
    - intros mid ->. destruct (is_zero (pdf0 d)) eqn:Z.
      + pose proof (proj1 IZ eq_refl) as Z0. destruct (linspace_runs QL QU n ltac:(lra)) as (_ & (r & E1) & E2). rewrite E1 at 2.
        split; [unfold linspace; now rewrite map_length, seq_length|]. split; [reflexivity|]. split; [exact E2|]. split; [intros _; apply linspace_steps; lia|congruence].
      + destruct (geomspace_from_runs g QL QU n ltac:(lra) ltac:(lra)) as (_ & (r & E1) & E2). rewrite E1 at 2.
        split; [unfold geomspace_from, geomspace; now rewrite !map_length, seq_length|]. split; [reflexivity|]. split; [exact E2|].
        split; [intros Z0; apply IZ in Z0; discriminate|]. intros _. apply geomspace_from_ratios. lia. }
  destruct (Req_EM_T g 0) as [Eg|Ng].
  - destruct (K 172%nat 23%nat) as (A1 & A2 & A3 & KM). destruct (KM _ eq_refl) as (M1 & M2 & M3 & M4 & M5).
    exists [0], (if is_zero (pdf0 d) then linspace QL QU 174 else geomspace_from g QL QU 174), (geomspace_from g QU b 25).
    split; [|repeat split; try assumption; [rewrite M1; lia|rewrite A3; lia|intros x [<-|[]]; lra]].
    rewrite Eg, !geomspace_from_0. destruct (is_zero (pdf0 d)); reflexivity.
  - destruct (K 171%nat 23%nat) as (A1 & A2 & A3 & KM). destruct (KM _ eq_refl) as (M1 & M2 & M3 & M4 & M5).
    exists [0; just_below g], (if is_zero (pdf0 d) then linspace QL QU 173 else geomspace_from g QL QU 173), (geomspace_from g QU b 25).
    split; [|repeat split; try assumption; [rewrite M1; lia|rewrite A3; lia|intros x [<-|[<-|[]]]; [lra|unfold just_below; fold QL; lra]]].
    destruct (is_zero (pdf0 d)); reflexivity.
Qed.
Print Assumptions C124_spacing.

Example C124_example : valid (Weibull 100 2 50) /\ half_line (Weibull 100 2 50) /\ / 10 ^ 8 <= location (Weibull 100 2 50).
Proof. split; [cbn; lra|]. split; [split; cbn; congruence|]. cbn [location]. apply Rle_trans with (/ 1); [|lra]. apply Rinv_le_contravar; [lra|]. apply pow_R1_Rle. lra. Qed.

(** ** C125 What the methods do with their arguments *)

Lemma input_checking_inv d Z T c k : input_checking d Z T c = Ok k ->
  In (c_func c) ["PDF"; "CDF"; "SF"; "HF"; "CHF"; "ALL"]%string /\ seq_ok (c_xvals c) = true /\ num_ok (c_xmin c) = true /\ num_ok (c_xmax c) = true /\
  x_values d c = Ok (k_X k) /\ (exists v, c_CI c = CI_num (T_float, v) \/ forall n, c_CI c <> CI_num n) /\
  resolve_CI (match c_CI c with CI_bool _ => Some (95 / 100) | CI_num n => Some (snd n) | CI_None => None end) Z = Ok (k_CI k) /\
  k_CI_type k = resolve_CI_type d (c_CI_type c) T /\
  k_show_plot k = match k_X k with X_number _ => false | X_array _ => match c_show_plot c with Some b => b | None => true end end /\
  k_plot_CI k = match c_CI c with CI_bool false => Some false | _ => c_plot_CI c end /\
  let both := (given (c_CI_x c) && given (c_CI_y c))%bool in
  let keep_x := match k_CI_type k with Some s => String.eqb s "reliability" | None => false end in
  check_CI_x d (if both && negb keep_x then A_None else c_CI_x c)%bool = Ok (k_CI_x k) /\
  check_CI_y (c_func c) (if both && keep_x then A_None else c_CI_y c)%bool = Ok (k_CI_y k).
Proof.
  unfold input_checking. intros H. destruct (negb (str_in _ _)) eqn:E1; [discriminate|]. apply negb_false_iff in E1. apply str_in_In in E1.
  destruct (negb (seq_ok (c_xvals c) && _ && _)) eqn:E2; [discriminate|]. apply negb_false_iff in E2. rewrite !andb_true_iff in E2.
  match type of H with (if ?b then _ else _) = _ => destruct b eqn:E3; [discriminate|] end.
  destruct (negb (seq_ok (c_CI_y c) && _)); [discriminate|]. apply bind_ok in H. destruct H as (X & HX & H). apply bind_ok in H. destruct H as (CI & HC & H).
  apply bind_ok in H. destruct H as (cx & Hx & H). apply bind_ok in H. destruct H as (cy & Hy & H). injection H as <-. cbn [k_X k_show_plot k_plot_CI k_CI_type k_CI k_CI_y k_CI_x].
  split; [exact E1|]. split; [tauto|]. split; [tauto|]. split; [tauto|]. split; [exact HX|]. split; [|split; [|split; [reflexivity|]]].
  - destruct (c_CI c) as [|b|[[] v]]; try discriminate; try (exists 0; right; congruence). exists v. now left.
  - destruct (c_CI c); exact HC.
  - split; [now destruct X|]. split; [reflexivity|]. split; [exact Hx|exact Hy].
Qed.
Lemma array_ok_domain d l : array_ok d l = true <-> l <> [] /\ Forall (in_domain d) l.
Proof.
  transitivity (l <> [] /\ (is_signed d || forallb (fun x => negb (Rltb' x 0)) l) && (negb (is_beta d) || forallb (fun x => negb (Rltb' 1 x)) l) = true)%bool.
  { unfold array_ok. destruct l as [|x l]; [split; [discriminate|intros [[] _]; reflexivity]|]. split; [intros H; split; [discriminate|exact H]|intros [_ H]; exact H]. }
  apply and_iff_compat_l. rewrite andb_true_iff, !orb_true_iff, !forallb_forall, Forall_forall.
  assert (forall a b, negb (Rltb' a b) = true <-> b <= a) as K by (intros a b; unfold Rltb'; destruct (Rlt_dec a b); cbn; split; intros; try discriminate; try reflexivity; lra).
  destruct d; cbn [is_signed is_beta in_domain negb];
    (split; [intros [[H|H] [H'|H']] x Hx; try discriminate; try (specialize (H x Hx); apply K in H); try (specialize (H' x Hx); apply K in H'); try exact I; lra
            |intros H; split; try (now left); right; intros x Hx; apply K; specialize (H x Hx); lra]).
Qed.

(** The level of confidence: what was asked for, else the level the object was fitted with,
    else 95 per cent. *)
Theorem C125_level : forall d Z T c k, input_checking d Z T c = Ok k ->
  (forall n, c_CI c = CI_num n -> 0 < snd n < 1 /\ k_CI k = snd n) /\
  (forall b, c_CI c = CI_bool b -> k_CI k = 95 / 100 /\ (b = false -> k_plot_CI k = Some false)) /\
  (c_CI c = CI_None -> Z = None -> k_CI k = 95 / 100) /\
  (forall CI, c_CI c = CI_None -> 0 < CI < 1 -> Z = Some (Z_of CI) -> k_CI k = CI) /\
  (forall z, c_CI c = CI_None -> Z = Some z -> 0 < z -> 0 < k_CI k < 1).
Proof.
  intros d Z T c k H. apply input_checking_inv in H. destruct H as (_ & _ & _ & _ & _ & _ & HC & _ & _ & HP & _). split; [|split; [|split; [|split]]].
  - intros n E. rewrite E in HC. cbn [resolve_CI] in HC. match type of HC with (if ?b then _ else _) = _ => destruct b eqn:B; [destruct Z; discriminate|] end. bools. destruct Z; injection HC as <-; lra.
  - intros b E. rewrite E in HC, HP. cbn [resolve_CI] in HC. match type of HC with (if ?b then _ else _) = _ => destruct b eqn:B; [destruct Z; discriminate|] end. split; [destruct Z; injection HC as <-; reflexivity|intros ->; exact HP].
  - intros E ->. rewrite E in HC. now injection HC as <-.
  - intros CI E H ->. rewrite E in HC. injection HC as <-. unfold Z_of. rewrite Ropp_involutive, Phi_norm_ppf by lra. lra.
  - intros z E -> Hz. rewrite E in HC. injection HC as <-. pose proof (Phi_gt_0 (- z)). assert (Phi (- z) < Phi 0) as L by (apply Phi_increasing; lra). rewrite Phi_0 in L. lra.
Qed.
Print Assumptions C125_level.

(** The type of interval: what was asked for, else what the object was fitted with. *)
Theorem C125_type : forall d Z T c k, input_checking d Z T c = Ok k ->
  (has_type d -> meaning match c_CI_type c with Some s => Some s | None => T end (k_CI_type k)) /\ (~ has_type d -> k_CI_type k = None).
Proof.
  intros d Z T c k H. apply input_checking_inv in H. destruct H as (_ & _ & _ & _ & _ & _ & _ & HT & _). rewrite HT. clear HT.
  assert (has_type d -> resolve_CI_type d (c_CI_type c) T = match match c_CI_type c with Some s => Some s | None => T end with
    | Some s => if str_in s no_CI_array then None else if str_in (upper s) ["T"; "TIME"]%string then Some "time"%string
          else if str_in (upper s) ["R"; "REL"; "RELIABILITY"]%string then Some "reliability"%string else None | None => None end) as E.
  { intros HD. destruct d; try contradiction; cbn [resolve_CI_type]; destruct (c_CI_type c) as [s|]; try (now destruct (str_in s _)); destruct T as [s|]; try reflexivity; now destruct (str_in s _). }
  split; [intros HD; rewrite (E HD); clear E|intros HD; destruct d; cbn in HD; tauto || reflexivity].
  destruct (match c_CI_type c with Some s => Some s | None => T end) as [s|]; [|reflexivity]. cbn [meaning]. unfold stands_for_time, stands_for_reliability. rewrite <- !str_in_In.
  destruct (str_in s no_CI_array) eqn:E1.
  - right. right. apply str_in_In in E1. cbn in E1. repeat destruct E1 as [<-|E1]; try contradiction; vm_compute; repeat split; discriminate.
  - destruct (str_in (upper s) ["T"; "TIME"]%string) eqn:E2; [now left|]. destruct (str_in (upper s) ["R"; "REL"; "RELIABILITY"]%string) eqn:E3; [right; left; auto|].
    right. right. repeat split; congruence.
Qed.
Print Assumptions C125_type.

(** The points at which to trace the interval: at most one list, inside the domain. *)
Theorem C125_traces : forall d Z T c k, input_checking d Z T c = Ok k ->
  (k_CI_x k = None \/ k_CI_y k = None) /\
  (forall l, k_CI_x k = Some l -> l <> [] /\ (is_signed d = false -> Forall (Rlt 0) l) /\ (c_CI_x c = A_seq l \/ exists t v, c_CI_x c = A_num (t, v) /\ l = [v])) /\
  (forall l, k_CI_y k = Some l -> l <> [] /\ Forall (Rlt 0) l /\ (c_func c = "CDF"%string \/ c_func c = "SF"%string -> Forall (fun v => v < 1) l) /\
     (c_CI_y c = A_seq l \/ exists t v, c_CI_y c = A_num (t, v) /\ l = [v])).
Proof.
  intros d Z T c k H. apply input_checking_inv in H. destruct H as (_ & _ & _ & _ & _ & _ & _ & _ & _ & _ & Hx & Hy). cbv zeta in *.
  set (keep_x := match k_CI_type k with Some s => String.eqb s "reliability" | None => false end) in *. clearbody keep_x.
  assert (forall a r, check_CI_x d a = Ok r -> match r with None => given a = false \/ a = A_other | Some l => l <> [] /\ (is_signed d = false -> Forall (Rlt 0) l) /\ (a = A_seq l \/ exists t v, a = A_num (t, v) /\ l = [v]) end) as Kx.
  { intros a r H. destruct a as [|[t v]|l|]; cbn [check_CI_x] in H; [injection H as <-; auto| | |injection H as <-; auto].
    - match type of H with (if ?b then _ else _) = _ => destruct b eqn:B; [discriminate|] end. injection H as <-. split; [discriminate|]. split; [|right; eauto]. intros S. rewrite S in B. cbn [negb] in B. rewrite andb_true_r in B. apply le_false in B. constructor; [exact B|constructor].
    - destruct l as [|x l]; [discriminate|]. match type of H with (if ?b then _ else _) = _ => destruct b eqn:B; [discriminate|] end. injection H as <-. split; [discriminate|]. split; [|now left]. intros S. rewrite S in B. cbn [negb] in B. rewrite andb_true_r in B.
      apply Forall_forall. intros y Hy'. apply Rnot_le_lt. intros L. enough (existsb (fun v => le v 0) (x :: l) = true) by congruence. apply existsb_exists. exists y. split; [exact Hy'|now apply le_spec]. }
  assert (forall a r, check_CI_y (c_func c) a = Ok r -> match r with None => given a = false \/ a = A_other | Some l => l <> [] /\ Forall (Rlt 0) l /\ (c_func c = "CDF"%string \/ c_func c = "SF"%string -> Forall (fun v => v < 1) l) /\ (a = A_seq l \/ exists t v, a = A_num (t, v) /\ l = [v]) end) as Ky.
  { assert (c_func c = "CDF"%string \/ c_func c = "SF"%string -> str_in (c_func c) ["CDF"; "SF"]%string = true) as KF by (intros F; apply str_in_In; cbn; intuition congruence).
    intros a r H. destruct a as [|[t v]|l|]; cbn [check_CI_y] in H; [injection H as <-; auto| | |injection H as <-; auto].
    - destruct (le v 0) eqn:B; [discriminate|]. apply le_false in B. match type of H with (if ?b then _ else _) = _ => destruct b eqn:B'; [discriminate|] end. injection H as <-. split; [discriminate|]. split; [constructor; [exact B|constructor]|]. split; [|eauto].
      intros F. rewrite (KF F) in B'. rewrite andb_true_r in B'. apply le_false in B'. constructor; [exact B'|constructor].
    - destruct l as [|x l]; [discriminate|]. match type of H with (if ?b then _ else _) = _ => destruct b eqn:B; [discriminate|] end. match type of H with (if ?b then _ else _) = _ => destruct b eqn:B'; [discriminate|] end. injection H as <-. split; [discriminate|]. split; [|split; [|now left]].
      + apply Forall_forall. intros y Hy'. apply Rnot_le_lt. intros L. enough (existsb (fun v => le v 0) (x :: l) = true) by congruence. apply existsb_exists. exists y. split; [exact Hy'|now apply le_spec].
      + intros F. rewrite (KF F) in B'. rewrite andb_true_r in B'. apply Forall_forall. intros y Hy'. apply Rnot_le_lt. intros L. enough (existsb (fun v => le 1 v) (x :: l) = true) by congruence. apply existsb_exists. exists y. split; [exact Hy'|now apply le_spec]. }
  apply Kx in Hx. apply Ky in Hy. split; [|split].
  - destruct (k_CI_x k) as [lx|]; [|now left]. destruct (k_CI_y k) as [ly|]; [|now right]. exfalso.
    destruct Hx as (_ & _ & Hx), Hy as (_ & _ & _ & Hy). destruct (c_CI_x c), (c_CI_y c), keep_x; cbn in Hx, Hy; destruct Hx as [Hx|(? & ? & Hx & _)], Hy as [Hy|(? & ? & Hy & _)]; congruence.
  - intros l E. rewrite E in Hx. destruct Hx as (H1 & H2 & H3). split; [exact H1|]. split; [exact H2|]. match type of H3 with (if ?b then _ else _) = _ \/ _ => destruct b end; [destruct H3 as [H3|(? & ? & H3 & _)]; discriminate|exact H3].
  - intros l E. rewrite E in Hy. destruct Hy as (H1 & H2 & H3 & H4). split; [exact H1|]. split; [exact H2|]. split; [exact H3|]. match type of H4 with (if ?b then _ else _) = _ \/ _ => destruct b end; [destruct H4 as [H4|(? & ? & H4 & _)]; discriminate|exact H4].
Qed.
Print Assumptions C125_traces.

(** The x values: the user's own, in their order, or the default range; no plot for a number. *)
Theorem C125_x_values : forall d Z T c k, input_checking d Z T c = Ok k ->
  match c_xvals c with
  | A_num (_, x) => (c_xmin c = A_None /\ c_xmax c = A_None /\ k_X k = X_number x /\ k_show_plot k = false) \/
      ((c_xmin c <> A_None \/ c_xmax c <> A_None) /\ k_X k = X_array [x] /\ in_domain d x)
  | A_seq l => k_X k = X_array l /\ l <> [] /\ Forall (in_domain d) l
  | _ => exists X, k_X k = X_array X /\ generate_X_array d (arg_value (c_xmin c)) (arg_value (c_xmax c)) = Ok X
  end.
Proof.
  intros d Z T c k H. apply input_checking_inv in H. destruct H as (_ & _ & _ & _ & HX & _ & _ & _ & HS & _). unfold x_values in HX.
  assert (forall l r, (let! l := checked_xvals d l in Ok (X_array l)) = Ok r -> r = X_array l /\ l <> [] /\ Forall (in_domain d) l) as K.
  { intros l r H. unfold checked_xvals in H. destruct (array_ok d l) eqn:E; [|discriminate]. injection H as <-. apply array_ok_domain in E. tauto. }
  destruct (c_xvals c) as [|[t x]|l|].
  - apply bind_ok in HX. destruct HX as (X & HX & E). injection E as <-. eauto.
  - assert ((c_xmin c = A_None /\ c_xmax c = A_None) \/ (c_xmin c <> A_None \/ c_xmax c <> A_None)) as [(E1 & E2)|N] by (destruct (c_xmin c), (c_xmax c); auto; right; (now left) || (now right)).
    + left. rewrite E1, E2 in HX. injection HX as HX. rewrite <- HX in HS |- *. auto.
    + right. split; [exact N|]. assert ((let! l := checked_xvals d [x] in Ok (X_array l)) = Ok (k_X k)) as E by (destruct (c_xmin c), (c_xmax c); try exact HX; destruct N; congruence).
      apply K in E. destruct E as (E & _ & F). split; [exact E|]. now inversion F.
  - now apply K.
  - apply bind_ok in HX. destruct HX as (X & HX & E). injection E as <-. eauto.
Qed.
Print Assumptions C125_x_values.

(** A call with x values in the domain and no other arguments is accepted: Missing: a number of
    class numpy.float64. *)
Theorem C125_accepted_partial : forall d Z T func xvals show, In func ["PDF"; "CDF"; "SF"; "HF"; "CHF"; "ALL"]%string ->
  match xvals with
  | A_num (t, _) => t <> T_float64
  | A_seq l => l <> [] /\ Forall (in_domain d) l
  | _ => False
  end ->
  exists k, input_checking d Z T (mkCall func xvals A_None A_None show None None CI_None A_None A_None) = Ok k.
Proof.
  intros d Z T func xvals show HF HX. unfold input_checking. cbn [c_func c_xvals c_xmin c_xmax c_show_plot c_plot_CI c_CI_type c_CI c_CI_y c_CI_x].
  apply str_in_In in HF. rewrite HF. cbn [negb]. unfold x_values. cbn [c_xvals c_xmin c_xmax].
  destruct xvals as [|[t x]|l|]; try contradiction.
  - cbn [seq_ok num_ok is_python fst]. destruct t; [| |congruence]; cbn [andb negb bind given]; destruct Z; cbn [resolve_CI option_map bind check_CI_x check_CI_y]; eexists; reflexivity.
  - destruct HX as [HX1 HX2]. unfold checked_xvals. rewrite (proj2 (array_ok_domain d l) (conj HX1 HX2)). cbn [seq_ok num_ok andb negb bind given]. destruct Z; cbn [resolve_CI option_map bind check_CI_x check_CI_y]; eexists; reflexivity.
Qed.
Print Assumptions C125_accepted_partial.

(** Every refusal is a ValueError. *)
Theorem C125_errors : forall d Z T c e, input_checking d Z T c = Err e -> e = ValueError.
Proof.
  intros d Z T c e H. unfold input_checking in H.
  assert (forall l e, checked_xvals d l = Err e -> e = ValueError) as K1 by (intros l e'; unfold checked_xvals; destruct (array_ok d l); congruence).
  assert (forall a b e, generate_X_array d a b = Err e -> e = ValueError) as K2.
  { intros a b e'. unfold generate_X_array. destruct d; cbv zeta; repeat first [discriminate|congruence|match goal with |- (let '(_, _) := exchanged ?a ?b in _) = _ -> _ => destruct (exchanged a b) | |- (if ?b then _ else _) = _ -> _ => destruct b end]. }
  assert (forall e, x_values d c = Err e -> e = ValueError) as K3.
  { intros e'. unfold x_values. destruct (c_xvals c) as [|[? ?]|?|], (c_xmin c), (c_xmax c); unfold bind;
      try (match goal with |- context [generate_X_array ?d ?a ?b] => destruct (generate_X_array d a b) eqn:E end; intros [= <-]; eapply K2; exact E);
      try (match goal with |- context [checked_xvals ?d ?a] => destruct (checked_xvals d a) eqn:E end; intros [= <-]; eapply K1; exact E); discriminate. }
  assert (forall a b e, resolve_CI a b = Err e -> e = ValueError) as K4 by (intros [a|] [b|] e'; cbn [resolve_CI]; try discriminate; match goal with |- (if ?b then _ else _) = _ -> _ => destruct b end; congruence).
  assert (forall a e, check_CI_x d a = Err e -> e = ValueError) as K5 by (intros [|[? ?]|[|? ?]|] e'; cbn [check_CI_x]; try congruence; match goal with |- (if ?b then _ else _) = _ -> _ => destruct b end; congruence).
  assert (forall f a e, check_CI_y f a = Err e -> e = ValueError) as K6 by (intros f [|[? ?]|[|? ?]|] e'; cbn [check_CI_y]; try congruence; do 2 try match goal with |- (if ?b then _ else _) = _ -> _ => destruct b end; congruence).
  repeat (match type of H with (if ?b then _ else _) = _ => destruct b; [congruence|] end).
  destruct (x_values d c) as [X|e'] eqn:E1; cbn [bind] in H; [|injection H as <-; now apply K3].
  match type of H with bind (resolve_CI ?a ?b) _ = _ => destruct (resolve_CI a b) as [CI|e'] eqn:E2 end; cbn [bind] in H; [|injection H as <-; eapply K4; exact E2].
  match type of H with bind (check_CI_x ?a ?b) _ = _ => destruct (check_CI_x a b) as [cx|e'] eqn:E3 end; cbn [bind] in H; [|injection H as <-; eapply K5; exact E3].
  match type of H with bind (check_CI_y ?a ?b) _ = _ => destruct (check_CI_y a b) as [cy|e'] eqn:E4 end; cbn [bind] in H; [discriminate|injection H as <-; eapply K6; exact E4].
Qed.
Print Assumptions C125_errors.

(** A number that quantile returned is refused by CDF, and the quantile lines of the PP plot are
    never drawn. *)
Theorem C125_quantile_refused : forall d Y Z T q, 0 <= q <= 1 ->
  (exists t x, quantile_num d q = Ok (t, x) /\ x = ppf d q /\ CDF_num d Z T (t, x) = Err ValueError /\ CDF_num d Z T (T_float, x) = Ok (cdf d x)) /\
  PP_quantile_line d Y Z T q = Err ValueError.
Proof.
  intros d Y Z T q Hq. assert (forall d, quantile_num d q = Ok (T_float64, ppf d q)) as E by (intros d'; unfold quantile_num, quantile; destruct (Rlt_dec q 0); [lra|]; destruct (Rlt_dec 1 q); [lra|reflexivity]).
  split; [|unfold PP_quantile_line; rewrite E; reflexivity].
  exists T_float64, (ppf d q). split; [apply E|]. split; [reflexivity|]. split; [reflexivity|].
  unfold CDF_num, input_checking. cbn. destruct Z; reflexivity.
Qed.
Print Assumptions C125_quantile_refused.

(** A number and the list with that number alone are not treated alike. *)
Theorem C125_refuted :
  (exists d v k, valid d /\ let c a := mkCall "CDF" a A_None A_None None None None CI_None A_None A_None in
     input_checking d None None (c (A_num (T_float, v))) = Ok k /\ input_checking d None None (c (A_seq [v])) = Err ValueError) /\
  (exists d v, valid d /\ in_domain d v /\ forall Z T func, input_checking d Z T (mkCall func (A_num (T_float64, v)) A_None A_None None None None CI_None A_None A_None) = Err ValueError) /\
  (exists d CI, 0 < CI < 1 /\ forall Z T func, input_checking d Z T (mkCall func A_None A_None A_None None None None (CI_num (T_float64, CI)) A_None A_None) = Err ValueError).
Proof.
  split; [|split].
  - exists (Exponential 1 0), (-1). eexists. split; [cbn; lra|]. cbv zeta. split; [cbn; reflexivity|]. unfold input_checking, x_values. cbn. unfold checked_xvals, array_ok. cbn. unfold Rltb'. destruct (Rlt_dec (-1) 0); [reflexivity|lra].
  - exists (Exponential 1 0), 1. split; [cbn; lra|]. split; [cbn; lra|]. intros Z T func. unfold input_checking. cbn [c_func c_xvals]. destruct (negb (str_in func _)); reflexivity.
  - exists (Exponential 1 0), (1 / 2). split; [lra|]. intros Z T func. unfold input_checking. cbn [c_func c_xvals]. destruct (negb (str_in func _)); reflexivity.
Qed.
Print Assumptions C125_refuted.

Example C125_example : exists k, input_checking (Weibull 10 2 0) (Some (Z_of (9 / 10))) (Some "time"%string)
    (mkCall "CDF" (A_seq [1; 2; 3]) A_None A_None None None (Some "r"%string) CI_None (A_num (T_float, 1 / 2)) (A_seq [5; 6])) = Ok k /\
  k_CI_type k = Some "reliability"%string /\ k_CI_x k = Some [5; 6] /\ k_CI_y k = None.
Proof.
  assert (resolve_CI_type (Weibull 10 2 0) (Some "r"%string) (Some "time"%string) = Some "reliability"%string) as E1 by reflexivity.
  assert (check_CI_x (Weibull 10 2 0) (A_seq [5; 6]) = Ok (Some [5; 6])) as E2.
  { cbn [check_CI_x existsb is_signed negb]. assert (le 5 0 = false) as -> by (apply le_false; lra). assert (le 6 0 = false) as -> by (apply le_false; lra). reflexivity. }
  unfold input_checking, x_values. cbn [c_func c_xvals c_xmin c_xmax c_show_plot c_plot_CI c_CI_type c_CI c_CI_y c_CI_x].
  unfold checked_xvals. rewrite (proj2 (array_ok_domain _ _)); [|split; [discriminate|repeat constructor; cbn; lra]]. rewrite E1.
  eexists. split; [cbn -[check_CI_x Phi IZR]; rewrite E2; reflexivity|]. auto.
Qed.
