(** Properties C107-C109: the estimates of the accelerated life test fitters, the initial estimate and
    Fit_Everything_ALT. *)
From Coquelicot Require Import Coquelicot.
From Coq Require Import String.
From Coq Require Import List Arith Reals Lra Lia Bool ZArith Sorting.Sorted Permutation.
From Verif Require Import Base RealFacts Gauss Ext RList ConvertModel RepairModel DistModel CombModel CombProofs RegModel RegSpec RegProofs PoFProofs2 FitModel FitSpec
  SelModel SelSpec SelProofs SelProps CIModel CISpec OtherModel OtherSpec ALTModel ALTSpec ALTProofs ALTProofs2 ALTProofs3 ALTProps.
Import ListNotations.
Open Scope R_scope.

(** ** C107 *)
Lemma answers_of {P} (minimize : opt -> P -> bool * P) LL_func guess :
  answers minimize guess (fun o => let r := loglik_optimizer minimize LL_func o guess in (fst (fst r), snd r)).
Proof. intros o. destruct (C63_runs minimize LL_func o guess) as (k & Hk & H & _). exists k. split; [exact Hk|exact H]. Qed.
Lemma checked_stands_for s q : check_optimizer (Some s) = Ok (Some q) -> exists os, optimizers_to_try (Some q) = Ok os /\ stands_for s os.
Proof.
  unfold check_optimizer, stands_for. destruct (String.eqb_spec (upper s) "TNC") as [E1|N1]; [intros [= <-]; eexists; split; [reflexivity|tauto]|].
  destruct (String.eqb_spec (upper s) "POWELL") as [E2|N2]; [intros [= <-]; eexists; split; [reflexivity|tauto]|].
  destruct (str_in (upper s) ["L-BFGS-B"; "LBFGSB"]%string) eqn:E3; [apply str_in_In in E3; intros [= <-]; eexists; split; [reflexivity|]; cbn in E3; right; right; left; intuition congruence|].
  destruct (str_in (upper s) ["NELDER-MEAD"; "NELDERMEAD"; "NM"]%string) eqn:E4; [apply str_in_In in E4; intros [= <-]; eexists; split; [reflexivity|]; cbn in E4; right; right; right; left; intuition congruence|].
  destruct (str_in (upper s) ["ALL"; "BEST"]%string) eqn:E5; [apply str_in_In in E5; intros [= <-]; eexists; split; [reflexivity|]; cbn in E5; right; right; right; right; intuition congruence|]. discriminate.
Qed.
Lemma check_optimizer_none o : check_optimizer o = Ok None -> o = None.
Proof. unfold check_optimizer. destruct o as [s|]; [|reflexivity]. repeat match goal with |- context [if ?b then _ else _] => destruct b; [discriminate|] end. discriminate. Qed.
Lemma items_data (m : ls_model) a k : used_stresses (dual_stress m) a (k_stress_1 k) (k_stress_2 k) (k_censored k) (k_censored_1 k) (k_censored_2 k) -> k_failures k = g_failures a ->
  forall f rc, data_of (dual_stress m) a f rc -> f = items (dual_stress m) (k_failures k) (k_stress_1 k) (k_stress_2 k) /\ rc = items (dual_stress m) (k_censored k) (k_censored_1 k) (k_censored_2 k).
Proof.
  intros HU EF f rc (s1 & s2 & c & c1 & c2 & HU' & -> & ->). destruct (used_unique _ _ _ _ _ _ _ _ _ _ _ _ HU HU') as (-> & -> & -> & -> & ->). rewrite EF, !items_pairs. auto.
Qed.
Lemma data_columns (m : ls_model) a k noisy : used_stresses (dual_stress m) a (k_stress_1 k) (k_stress_2 k) (k_censored k) (k_censored_1 k) (k_censored_2 k) -> k_failures k = g_failures a ->
  length (k_stress_1 k) = length (g_failures a) -> (dual_stress m = true -> length (k_stress_2 k) = length (g_failures a)) ->
  let f := items (dual_stress m) (k_failures k) (k_stress_1 k) (k_stress_2 k) in
  ALT_least_squares m noisy (k_failures k) (k_stress_1 k) (k_stress_2 k) = ALT_least_squares m noisy (times f) (stress_1 f) (stress_2 f).
Proof.
  intros HU EF L1 L2. cbv zeta. rewrite items_pairs. rewrite <- EF in L1, L2. clear EF HU.
  assert (forall t s1 s2, length s1 = length t -> length s2 = length t -> times (combine t (combine s1 s2)) = t /\ stress_1 (combine t (combine s1 s2)) = s1 /\ stress_2 (combine t (combine s1 s2)) = s2) as K.
  { induction t as [|x t IH]; intros [|y s1] [|z s2] H1 H2; try discriminate; [auto|]. cbn [combine times stress_1 stress_2 map fst snd]. destruct (IH s1 s2) as (E1 & E2 & E3); [cbn in *; lia..|].
    unfold times, stress_1, stress_2 in *. now rewrite E1, E2, E3. }
  destruct (dual_stress m) eqn:Hd; cbn [pairs_of].
  - destruct (K (k_failures k) (k_stress_1 k) (k_stress_2 k) L1 (L2 eq_refl)) as (-> & -> & ->). reflexivity.
  - assert (map (fun x : R => (x, 0)) (k_stress_1 k) = combine (k_stress_1 k) (map (fun _ => 0) (k_stress_1 k))) as -> by (clear; induction (k_stress_1 k) as [|x l IH]; cbn [map combine]; congruence).
    destruct (K (k_failures k) (k_stress_1 k) (map (fun _ => 0) (k_stress_1 k)) L1) as (-> & -> & _); [now rewrite map_length|]. destruct m; discriminate || reflexivity.
Qed.
Lemma common_shape_starting fits : starting_shape fits (common_shape fits).
Proof.
  exists (shapes fits). split; [|split; [|split]].
  - intros x. unfold shapes. rewrite in_flat_map. split; [intros ([[a y]|] & H & I); [destruct I as [<-|[]]; eauto|destruct I]|intros (a & H); exists (Some (a, x)); split; [exact H|now left]].
  - unfold shapes. induction fits as [|[p|] l IH]; cbn; [reflexivity|f_equal; exact IH|exact IH].
  - unfold shapes. induction fits as [|[p|] l IH]; [reflexivity|cbn [flat_map map app]; rewrite !rsum_cons; now rewrite IH|cbn [flat_map map app]; rewrite rsum_cons; rewrite IH; lra].
  - unfold common_shape. destruct (shapes fits) as [|x l]; [now left|right]. split; [discriminate|]. field. apply not_0_INR. discriminate.
Qed.
Lemma fit_choice kle d m noisy fit2P minimize diag a r f rc : alt_fit kle d m noisy fit2P minimize diag a = Ok r -> data_of (dual_stress m) a f rc ->
  exists guess shape q, ALT_least_squares m noisy (times f) (stress_1 f) (stress_2 f) = Ok guess /\ check_optimizer (g_optimizer a) = Ok q /\
    MLE_optimization minimize (fun x => alt_LL d m (fst x) (snd x) f rc / 2) q (guess, shape) = Ok (a_success r, a_optimizer r, (a_params r, a_shape r)) /\
    (total_order kle -> starting_shape (map h_original (a_change r)) shape).
Proof.
  intros H HD. destruct (alt_fit_inv _ _ _ _ _ _ _ _ _ H) as (k & guess & fits & lims & Hk & HG & HFits & HM & _ & _ & _ & _ & HCh).
  pose proof (check_data_used _ _ _ _ Hk) as (HU & (L1 & L2 & L3 & _) & EF & _ & HO & _). destruct (items_data m a k HU EF f rc HD) as [-> ->].
  exists guess, (common_shape fits), (k_optimizer k). split; [|split; [exact HO|split; [exact HM|]]].
  2: { intros Ho. replace (map h_original (a_change r)) with fits; [apply common_shape_starting|].
       destruct (C73_failures kle (Some m) a k Ho Hk) as (_ & _ & HFg & _). apply group_fits_length in HFits. rewrite HFg, map_length in HFits.
       rewrite HCh, map_map. cbn [h_original]. clear -HFits. revert fits HFits. induction (k_stresses k) as [|s l IH]; intros [|x fits] H3; try discriminate; [reflexivity|]. cbn [combine map snd]. f_equal. apply IH. now injection H3. }
  rewrite <- (data_columns m a k noisy HU EF); [exact HG|congruence|]. intros E. apply (L3 E).
Qed.

(** A named optimizer or "best". Missing: several optimizers and a positive log-likelihood, see C107_refuted. *)
Theorem C107_named_partial kle d m noisy fit2P minimize diag a r f rc s :
  alt_fit kle d m noisy fit2P minimize diag a = Ok r -> data_of (dual_stress m) a f rc -> g_optimizer a = Some s ->
  let loglik x := - alt_LL d m (fst x) (snd x) f rc in
  exists guess shape answer os, ALT_least_squares m noisy (times f) (stress_1 f) (stress_2 f) = Ok guess /\ (total_order kle -> starting_shape (map h_original (a_change r)) shape) /\ answers minimize (guess, shape) answer /\ stands_for s os /\
    (length os = 1%nat \/ (forall o, In o os -> fst (answer o) = true -> loglik (snd (answer o)) <= 0) ->
     most_likely loglik answer os (guess, shape) (a_success r) (a_optimizer r) (a_params r, a_shape r)).
Proof.
  intros H HD Hs loglik. destruct (fit_choice _ _ _ _ _ _ _ _ _ _ _ H HD) as (guess & shape & q & HG & HO & HM & HSh). rewrite Hs in HO.
  destruct q as [q|]; [|apply check_optimizer_none in HO; discriminate]. destruct (checked_stands_for s q HO) as (os & Hos & HS).
  set (LLf := fun x : ls_params * R => alt_LL d m (fst x) (snd x) f rc / 2) in *.
  exists guess, shape, (fun o => let r := loglik_optimizer minimize LLf o (guess, shape) in (fst (fst r), snd r)), os.
  split; [exact HG|]. split; [exact HSh|]. split; [apply answers_of|]. split; [exact HS|]. cbv zeta. cbn [fst snd]. intros HL.
  destruct (mle_spec minimize LLf (Some q) (guess, shape) _ HM) as (os' & E & HC). rewrite Hos in E. injection E as <-. unfold tried in HC. rewrite attempts_all in HC. unfold most_likely. cbn [fst snd].
  destruct HC as [(o' & x' & E & (b & Hb & Hok & E1 & E2) & HB)|[E HF]]; [injection E as -> -> E|injection E as -> -> E E'].
  - split; [|discriminate]. intros _. apply in_map_iff in Hb. destruct Hb as (o & <- & Ho). cbn [fst] in E1. subst o. unfold a_x, a_ok in *. cbn [fst snd] in *. rewrite E. exists o'.
    split; [reflexivity|]. split; [exact Ho|]. split; [now rewrite Hok, E2|]. intros o'' Ho'' Hs''.
    specialize (HB _ (in_map (fun o => (o, loglik_optimizer minimize LLf o (guess, shape))) _ _ Ho'') Hs''). cbn [fst snd] in HB. destruct HL as [HL|HL].
    + destruct os as [|o [|? ?]]; try discriminate HL. destruct Ho as [->|[]]. destruct Ho'' as [->|[]]. rewrite E2. lra.
    + pose proof (HL o' Ho Hok) as P1. pose proof (HL o'' Ho'' Hs'') as P2. rewrite E2 in P1. set (y := snd (loglik_optimizer minimize LLf o'' (guess, shape))) in *. clearbody y. unfold LLf in HB. unfold loglik in *. rewrite !Rabs_right in HB by lra. lra.
  - split; [discriminate|]. intros _. split; [reflexivity|]. split; [now rewrite E, E'|]. intros o'' Ho''.
    exact (HF _ (in_map (fun o => (o, loglik_optimizer minimize LLf o (guess, shape))) _ _ Ho'')).
Qed.
Print Assumptions C107_named_partial.
(** The default: the first optimizer that succeeds. *)
Theorem C107_default kle d m noisy fit2P minimize diag a r f rc :
  alt_fit kle d m noisy fit2P minimize diag a = Ok r -> data_of (dual_stress m) a f rc -> g_optimizer a = None ->
  exists guess shape answer, ALT_least_squares m noisy (times f) (stress_1 f) (stress_2 f) = Ok guess /\ (total_order kle -> starting_shape (map h_original (a_change r)) shape) /\ answers minimize (guess, shape) answer /\
    first_successful answer [TNC; L_BFGS_B; Nelder_Mead; Powell] (guess, shape) (a_success r) (a_optimizer r) (a_params r, a_shape r).
Proof.
  intros H HD Hs. destruct (fit_choice _ _ _ _ _ _ _ _ _ _ _ H HD) as (guess & shape & q & HG & HO & HM & HSh). rewrite Hs in HO. injection HO as <-.
  set (LLf := fun x : ls_params * R => alt_LL d m (fst x) (snd x) f rc / 2) in *.
  exists guess, shape, (fun o => let r := loglik_optimizer minimize LLf o (guess, shape) in (fst (fst r), snd r)).
  split; [exact HG|]. split; [exact HSh|]. split; [apply answers_of|]. destruct (C63_MLE_default minimize LLf (guess, shape) _ _ _ HM) as [H1 H2]. unfold first_successful. cbv zeta. cbn [fst snd]. split.
  - intros E. destruct (H1 E) as (o' & pre & post & A1 & A2 & A3 & A4 & A5). exists o', pre, post. split; [exact A1|]. split; [exact A4|]. split; [now rewrite A3, A2|].
    intros o'' Ho''. apply not_true_is_false. now apply A5.
  - intros E. destruct (H2 E) as (A1 & A2 & A3). split; [exact A1|]. split; [exact A2|]. intros o'' _. apply not_true_is_false. apply A3.
Qed.
Print Assumptions C107_default.
Lemma rerun_const {P} (x : P) n g : (1 <= n)%nat -> rerun (fun _ => (true, x)) n g = (true, x).
Proof. revert g. induction n as [|n IH]; intros g H; [lia|]. destruct n as [|n]; [reflexivity|]. exact (IH x ltac:(lia)). Qed.
Lemma runs_const {P} (minimize : opt -> P -> bool * P) LLf (x : opt -> P) g : (forall o g, minimize o g = (true, x o)) -> forall o, fst (fst (loglik_optimizer minimize LLf o g)) = true /\ snd (loglik_optimizer minimize LLf o g) = x o.
Proof.
  intros H o. destruct (C63_runs minimize LLf o g) as (k & Hk & E & _). assert (forall n g, (1 <= n)%nat -> rerun (minimize o) n g = (true, x o)) as R.
  { induction n as [|n IH]; intros g0 H0; [lia|]. destruct n as [|n]; [apply H|]. cbn [rerun]. apply IH. lia. }
  rewrite (R k g) in E by lia. injection E as E1 E2. auto.
Qed.
Definition demo_short : alt_args :=
  {| g_failures := [1 / 100; 2 / 100; 3 / 100]; g_stress_1 := Some [10; 20; 30]; g_stress_2 := None; g_censored := None; g_censored_1 := None; g_censored_2 := None;
     g_CI := 19 / 20; g_optimizer := Some "best"%string; g_use := None |}.
Lemma demo_short_acceptable : acceptable false demo_short.
Proof.
  exists [10; 20; 30], [], [], [], []. split; [unfold used_stresses; cbn; auto|]. cbn [demo_short g_failures g_CI g_optimizer g_use known_optimizer use_fits].
  split; [reflexivity|]. split; [reflexivity|]. split; [discriminate|]. split; [intros t [H|[]]; cbn in H; destruct H as [<-|[<-|[<-|[]]]]; lra|].
  split; [lra|]. split; [vm_compute; tauto|]. split; [exact I|]. split; [exists 10, 20; cbn; split; [tauto|]; split; [tauto|lra]|]. split; [discriminate|]. split; [|discriminate].
  exists [((10, 0), 1 / 100); ((20, 0), 2 / 100); ((30, 0), 3 / 100)]. split; [|split; [intros x Hx; cbn in *; tauto|reflexivity]].
  constructor; [cbn; intros [H|[H|[]]]; injection H; lra|]. constructor; [cbn; intros [H|[]]; injection H; lra|]. constructor; [intros []|constructor].
Qed.
Lemma demo_short_data : data_of false demo_short [(1 / 100, (10, 0)); (2 / 100, (20, 0)); (3 / 100, (30, 0))] [].
Proof. exists [10; 20; 30], [], [], [], []. repeat split. Qed.
Lemma demo_short_fitted kle d m noisy fit2P minimize diag : total_order kle -> dual_stress m = false -> (forall est, diag est <> None) -> exists r, alt_fit kle d m noisy fit2P minimize diag demo_short = Ok r.
Proof.
  intros Ho Hd HD. apply C105_fitted_partial; [exact Ho|rewrite Hd; exact demo_short_acceptable| | |now left].
  - intros s1 [= <-]. repeat (apply Forall_cons; [lra|]). apply Forall_nil.
  - rewrite Hd. intros f rc (s1 & s2 & c & c1 & c2 & (U1 & U2 & _) & -> & _) s. cbn in U1, U2. injection U1 as <-. subst s2. cbn [demo_short g_failures pairs_of map combine snd fst at_stress]. left.
    destruct (Rpair_dec (10, 0) s) as [<-|N1].
    + destruct (Rpair_dec (20, 0) (10, 0)) as [E|_]; [injection E; lra|]. destruct (Rpair_dec (30, 0) (10, 0)) as [E|_]; [injection E; lra|]. cbn. lia.
    + destruct (Rpair_dec (20, 0) s) as [<-|N2]; [|destruct (Rpair_dec (30, 0) s); cbn; lia]. destruct (Rpair_dec (30, 0) (20, 0)) as [E|_]; [injection E; lra|]. cbn. lia.
Qed.
(** Short times have positive log-likelihoods, and then the less likely of the answers is returned. *)
Theorem C107_refuted : acceptable false demo_short /\ g_optimizer demo_short = Some "best"%string /\
  forall kle noisy fit2P diag, total_order kle -> (forall est, diag est <> None) -> exists minimize r f rc x,
    data_of false demo_short f rc /\ alt_fit kle A_Exponential LS_Power noisy fit2P minimize diag demo_short = Ok r /\
    (forall guess k, (1 <= k)%nat -> rerun (minimize Powell) k guess = (true, x)) /\
    - alt_LL A_Exponential LS_Power (a_params r) (a_shape r) f rc < - alt_LL A_Exponential LS_Power (fst x) (snd x) f rc.
Proof.
  split; [exact demo_short_acceptable|]. split; [reflexivity|]. intros kle noisy fit2P diag Ho HD.
  set (xo := fun o : opt => ({| l_0 := exp (- match o with TNC => 1 | _ => 2 end); l_1 := 0; l_2 := 0 |}, 1)).
  set (minimize := fun (o : opt) (g : ls_params * R) => (true, xo o)).
  destruct (demo_short_fitted kle A_Exponential LS_Power noisy fit2P minimize diag Ho eq_refl HD) as [r Hr].
  exists minimize, r, [(1 / 100, (10, 0)); (2 / 100, (20, 0)); (3 / 100, (30, 0))], [], (xo Powell). split; [exact demo_short_data|]. split; [exact Hr|].
  split; [intros guess k Hk; now apply (rerun_const (xo Powell))|].
  destruct (fit_choice _ _ _ _ _ _ _ _ _ _ _ Hr demo_short_data) as (guess & shape & q & _ & HO & HM & _).
  assert (q = Some "best"%string) as -> by (vm_compute in HO; congruence).
  set (f := [(1 / 100, (10, 0)); (2 / 100, (20, 0)); (3 / 100, (30, 0))]) in *. set (LLf := fun x : ls_params * R => alt_LL A_Exponential LS_Power (fst x) (snd x) f [] / 2) in *.
  assert (forall k, alt_LL A_Exponential LS_Power {| l_0 := exp (- k); l_1 := 0; l_2 := 0 |} 1 f [] = - (3 * k - 6 / 100 * exp k)) as V.
  { intros k. unfold alt_LL, f. cbn [map alt_logf alt_life fst snd l_0 l_1]. rewrite !rsum_cons. unfold Rpower. rewrite !Rmult_0_l, exp_0, Rmult_1_r.
    replace (1 / exp (- k)) with (exp k) by (rewrite exp_Ropp; field; apply Rgt_not_eq, exp_pos). rewrite ln_exp. cbn. lra. }
  pose proof (runs_const minimize LLf xo (guess, shape) (fun o g => eq_refl)) as K.
  destruct (mle_spec minimize LLf (Some "best"%string) (guess, shape) _ HM) as (os & E & HC). injection E as <-. unfold tried in HC. rewrite attempts_all in HC.
  pose proof exp_le_3 as E3. assert (exp 2 = exp 1 * exp 1) as E2 by (rewrite <- exp_plus; f_equal; lra). pose proof (exp_pos 1) as E1. assert (0 < exp 2 <= 9) as E9 by (split; [apply exp_pos|rewrite E2; nra]). clear E2.
  assert (forall o, LLf (xo o) = - (3 * (match o with TNC => 1 | _ => 2 end) - 6 / 100 * exp (match o with TNC => 1 | _ => 2 end)) / 2) as W by (intros o; unfold LLf, xo; cbn [fst snd]; destruct o; rewrite V; reflexivity).
  destruct HC as [(o' & x' & E & (b & Hb & _ & _ & Ex) & HB)|[_ HF]].
  - injection E as _ _ E. apply in_map_iff in Hb. destruct Hb as (o & <- & _). unfold a_x in Ex. cbn [snd] in Ex. rewrite (proj2 (K o)) in Ex. subst x'.
    specialize (HB _ (in_map (fun o => (o, loglik_optimizer minimize LLf o (guess, shape))) [TNC; L_BFGS_B; Nelder_Mead; Powell] TNC ltac:(cbn; tauto)) (proj1 (K TNC))).
    unfold a_x in HB. cbn [snd] in HB. rewrite (proj2 (K TNC)), <- Ex, !W in HB.
    assert (o = TNC) as ->.
    { destruct o; [reflexivity|exfalso..]; cbv iota in HB; rewrite !Rabs_left in HB by lra; lra. }
    assert (alt_LL A_Exponential LS_Power (a_params r) (a_shape r) f [] = 2 * LLf (xo TNC)) as -> by (rewrite Ex; unfold LLf; cbn [fst snd]; lra).
    assert (alt_LL A_Exponential LS_Power (fst (xo Powell)) (snd (xo Powell)) f [] = 2 * LLf (xo Powell)) as -> by (unfold LLf; lra). rewrite !W. cbv iota. lra.
  - exfalso. specialize (HF _ (in_map (fun o => (o, loglik_optimizer minimize LLf o (guess, shape))) [TNC; L_BFGS_B; Nelder_Mead; Powell] TNC ltac:(cbn; tauto))). unfold a_ok in HF. cbn [fst snd] in HF. rewrite (proj1 (K TNC)) in HF. discriminate.
Qed.
Print Assumptions C107_refuted.
Example C107_case kle d m noisy fit2P minimize diag : total_order kle -> dual_stress m = false -> (forall est, diag est <> None) ->
  (exists r, alt_fit kle d m noisy fit2P minimize diag demo_short = Ok r) /\ (exists f rc, data_of (dual_stress m) demo_short f rc) /\ stands_for "best" [TNC; L_BFGS_B; Nelder_Mead; Powell].
Proof.
  intros Ho Hd HD. split; [now apply demo_short_fitted|]. split; [rewrite Hd; do 2 eexists; exact demo_short_data|]. right. right. right. right. split; [right|]; reflexivity.
Qed.

(** ** C108 *)

(** One stress: the least error over all parameters. *)
Theorem C108_single m noisy f S2 : dual_stress m = false -> Forall (positive_item false) f ->
  (two_values (stress_1 f) -> exists p, ALT_least_squares m noisy (times f) (stress_1 f) S2 = Ok p) /\
  forall p, ALT_least_squares m noisy (times f) (stress_1 f) S2 = Ok p -> scale_ok m p /\
    forall p' e e', scale_ok m p' -> squared_log_error m p f e -> squared_log_error m p' f e' -> e <= e'.
Proof.
  intros Hd Hf. assert (Forall (positive_item (dual_stress m)) f) as Hf' by now rewrite Hd. split.
  - intros H2. apply least_squares_ok; [unfold times, stress_1; now rewrite !map_length| |exact H2].
    unfold stress_1. rewrite Forall_map. eapply Forall_impl; [|exact Hf]. intros i (_ & H & _). exact H.
  - intros p H. rewrite (least_squares_single m noisy f S2 Hd) in H. apply bind_ok in H. destruct H as ([s c] & HL & H). injection H as <-. cbn [fst snd].
    pose proof (from_line_ok m s c Hd) as Hs. split; [exact Hs|]. intros p' e e' Hs' He He'. apply (error_form m _ f e Hs Hf') in He. apply (error_form m p' f e' Hs' Hf') in He'. subst e e'.
    destruct (line_params m p' Hd) as (s' & c' & E'). pose proof (line_optimal _ _ f s c HL s' c') as O. unfold sm in *.
    rewrite (rsum_ext (fun i => (ln (fst i) - log_life m (from_line m s c) (snd i)) ^ 2) (fun i => (height m i - (s * scale_1 m (fst (snd i)) + c)) ^ 2)) by (intros i _; now rewrite from_line_life).
    rewrite (rsum_ext (fun i => (ln (fst i) - log_life m p' (snd i)) ^ 2) (fun i => (height m i - (s' * scale_1 m (fst (snd i)) + c')) ^ 2)) by (intros i _; now rewrite E'). exact O.
Qed.
Print Assumptions C108_single.
(** Two stresses. Missing: stresses that are aligned, see C108_aligned and C108_aligned_refuted. *)
Theorem C108_dual_partial m noisy f : dual_stress m = true -> Forall (positive_item true) f -> ~ aligned m f ->
  exists p, ALT_least_squares m noisy (times f) (stress_1 f) (stress_2 f) = Ok p /\ scale_ok m p /\
    forall p' e e', scale_ok m p' -> squared_log_error m p f e -> squared_log_error m p' f e' -> e <= e'.
Proof.
  intros Hd Hf Ha. assert (Forall (positive_item (dual_stress m)) f) as Hf' by now rewrite Hd. rewrite (least_squares_dual m noisy f Hd). unfold plane.
  destruct (solve3_cases (fun i => scale_1 m (fst (snd i))) (fun i => scale_2 m (snd (snd i))) (fun i : R * (R * R) => ln (fst i)) f) as [[E _]|(_ & s0 & s1 & s2 & -> & HN)]; [now apply not_aligned_det in Ha|].
  exists (from_plane m s0 s1 s2). split; [reflexivity|]. pose proof (from_plane_ok m s0 s1 s2 Hd) as Hs. split; [exact Hs|]. intros p' e e' Hs' He He'.
  apply (error_form m _ f e Hs Hf') in He. apply (error_form m p' f e' Hs' Hf') in He'. subst e e'. destruct (plane_params m p' Hd) as (t0 & t1 & t2 & E').
  pose proof (normal_optimal _ _ _ s0 s1 s2 t0 t1 t2 f HN) as O. unfold err, sm in *.
  rewrite (rsum_ext (fun i => (ln (fst i) - log_life m (from_plane m s0 s1 s2) (snd i)) ^ 2) (fun i => (ln (fst i) - (s0 + s1 * scale_1 m (fst (snd i)) + s2 * scale_2 m (snd (snd i)))) ^ 2)) by (intros i _; now rewrite from_plane_life).
  rewrite (rsum_ext (fun i => (ln (fst i) - log_life m p' (snd i)) ^ 2) (fun i => (ln (fst i) - (t0 + t1 * scale_1 m (fst (snd i)) + t2 * scale_2 m (snd (snd i)))) ^ 2)) by (intros i _; now rewrite E'). exact O.
Qed.
Print Assumptions C108_dual_partial.
(** Times that follow the model give its parameters back. *)
Theorem C108_exact m noisy f p : Forall (positive_item (dual_stress m)) f -> scale_ok m p ->
  (forall i, In i f -> life_stress m (named m p) (fst (snd i)) (snd (snd i)) (fst i)) ->
  (if dual_stress m then ~ aligned m f else two_values (stress_1 f)) ->
  exists p', ALT_least_squares m noisy (times f) (stress_1 f) (stress_2 f) = Ok p' /\ named m p' = named m p.
Proof.
  intros Hf Hs HL Ha. assert (forall i, In i f -> ln (fst i) = log_life m p (snd i)) as K.
  { intros i Hi. rewrite Forall_forall in Hf. destruct (Hf i Hi) as (_ & H1 & _). rewrite <- (ln_life m p (snd i) Hs H1). f_equal. eapply life_unique; [apply HL, Hi|apply life_spec; lra]. }
  destruct (dual_stress m) eqn:Hd.
  - rewrite (least_squares_dual m noisy f Hd). unfold plane.
    rewrite (solve3_exact _ _ _ (fst (fst (plane_of m p))) (snd (fst (plane_of m p))) (snd (plane_of m p)) f (not_aligned_det m f Ha)) by (intros i Hi; rewrite (K i Hi); now apply plane_of_life).
    eexists. split; [reflexivity|]. now apply from_plane_of.
  - rewrite (least_squares_single m noisy f _ Hd). rewrite (line_exactly _ _ f (fst (line_of m p)) (snd (line_of m p))).
    + eexists. split; [reflexivity|]. now apply from_line_of.
    + destruct Ha as (x & y & Hx & Hy & N). unfold stress_1 in Hx, Hy. apply in_map_iff in Hx, Hy. destruct Hx as (i & <- & Hi). destruct Hy as (j & <- & Hj). exists i, j. split; [exact Hi|]. split; [exact Hj|].
      rewrite Forall_forall in Hf. intros E. apply N. apply (scale_1_inj m); [apply (Hf i Hi)|apply (Hf j Hj)|exact E].
    + intros i Hi. apply line_of_height; [exact Hd|apply K, Hi].
Qed.
Print Assumptions C108_exact.
(** Stresses that are aligned do not determine the parameters: other parameters give the same life at every item,
    so also the same likelihood; and the initial estimate is what the matrix with random noise happens to give. *)
Theorem C108_aligned m noisy s0 s1 s2 f : dual_stress m = true -> Forall (positive_item true) f -> aligned m f ->
  (forall p, scale_ok m p -> exists p', scale_ok m p' /\ named m p' <> named m p /\
     (forall i, In i f -> exists L, life_stress m (named m p) (fst (snd i)) (snd (snd i)) L /\ life_stress m (named m p') (fst (snd i)) (snd (snd i)) L) /\
     forall d shape rc, incl (map snd rc) (map snd f) -> alt_LL d m p' shape f rc = alt_LL d m p shape f rc) /\
  (noisy = Some (s0, s1, s2) -> ALT_least_squares m noisy (times f) (stress_1 f) (stress_2 f) = Ok (from_plane m s0 s1 s2)).
Proof.
  intros Hd Hf Ha. split.
  - intros p Hs. destruct Ha as (a & b & c & Hab & HL).
    set (t0 := fst (fst (plane_of m p)) - c). set (t1 := snd (fst (plane_of m p)) + a). set (t2 := snd (plane_of m p) + b). set (p' := from_plane m t0 t1 t2).
    assert (forall s, In s (map snd f) -> alt_life m p' (fst s) (snd s) = alt_life m p (fst s) (snd s)) as K.
    { intros s Hi. apply in_map_iff in Hi. destruct Hi as (i & <- & Hi). rewrite Forall_forall in Hf. destruct (Hf i Hi) as (_ & P1 & P2). specialize (P2 eq_refl).
      assert (0 < alt_life m p' (fst (snd i)) (snd (snd i))) by (apply life_pos; [now apply from_plane_ok|exact P1]). assert (0 < alt_life m p (fst (snd i)) (snd (snd i))) by (apply life_pos; [exact Hs|exact P1]).
      apply ln_inv; [assumption..|]. rewrite !ln_life by (auto; now apply from_plane_ok). unfold p'. rewrite from_plane_life, plane_of_life by exact Hd. specialize (HL i Hi). unfold t0, t1, t2. rewrite <- HL. ring. }
    exists p'. split; [now apply from_plane_ok|]. split.
    { intros E. unfold p', t0, t1, t2 in E. destruct m; try discriminate Hd; cbn [named from_plane plane_of fst snd l_0 l_1 l_2] in E; injection E; intros; destruct Hab; lra. }
    split.
    + intros i Hi. exists (alt_life m p (fst (snd i)) (snd (snd i))). rewrite Forall_forall in Hf. destruct (Hf i Hi) as (_ & P1 & _). split; [apply life_spec; lra|].
      rewrite <- (K (snd i)) by (now apply in_map). apply life_spec. lra.
    + intros d shape rc Hrc. unfold alt_LL. f_equal. f_equal; apply rsum_ext; intros i Hi; rewrite K; auto using in_map.
  - intros ->. rewrite (least_squares_dual m _ f Hd). unfold plane.
    destruct (solve3_cases (fun i => scale_1 m (fst (snd i))) (fun i => scale_2 m (snd (snd i))) (fun i : R * (R * R) => ln (fst i)) f) as [[_ ->]|[N _]]; [reflexivity|]. now apply aligned_det in Ha.
Qed.
Print Assumptions C108_aligned.
Definition demo_aligned : alt_args :=
  {| g_failures := [1; 2; 3; 4]; g_stress_1 := Some [10; 10; 20; 20]; g_stress_2 := Some [10; 10; 20; 20]; g_censored := None; g_censored_1 := None; g_censored_2 := None;
     g_CI := 19 / 20; g_optimizer := None; g_use := None |}.
Definition demo_aligned_data : list (R * (R * R)) := [(1, (10, 10)); (2, (10, 10)); (3, (20, 20)); (4, (20, 20))].
(** Both stresses raised together: accepted, although they determine no model. *)
Theorem C108_aligned_refuted : acceptable true demo_aligned /\ data_of true demo_aligned demo_aligned_data [] /\ (forall m, dual_stress m = true -> m <> LS_Power_Exponential -> aligned m demo_aligned_data) /\
  exists noisy p p' e e', ALT_least_squares LS_Dual_Power noisy (times demo_aligned_data) (stress_1 demo_aligned_data) (stress_2 demo_aligned_data) = Ok p /\ scale_ok LS_Dual_Power p' /\
    squared_log_error LS_Dual_Power p demo_aligned_data e /\ squared_log_error LS_Dual_Power p' demo_aligned_data e' /\ e' < e.
Proof.
  assert (forall m, dual_stress m = true -> m <> LS_Power_Exponential -> aligned m demo_aligned_data) as HA.
  { intros m Hd Hm. exists 1, (- 1), 0. split; [left; lra|]. intros i Hi. cbn in Hi. destruct Hi as [<-|[<-|[<-|[<-|[]]]]]; destruct m; try discriminate; try congruence; cbn [scale_1 scale_2 fst snd]; ring. }
  split; [|split; [exists [10; 10; 20; 20], [10; 10; 20; 20], [], [], []; repeat split|split; [exact HA|]]].
  - exists [10; 10; 20; 20], [10; 10; 20; 20], [], [], []. split; [unfold used_stresses; cbn; auto|]. cbn [demo_aligned g_failures g_CI g_optimizer g_use known_optimizer use_fits].
    split; [reflexivity|]. split; [reflexivity|]. split; [auto|]. split; [intros t [H|[]]; cbn in H; destruct H as [<-|[<-|[<-|[<-|[]]]]]; lra|].
    split; [lra|]. split; [exact I|]. split; [exact I|]. split; [exists 10, 20; cbn; split; [tauto|]; split; [tauto|lra]|]. split; [intros _; exists 10, 20; cbn; split; [tauto|]; split; [tauto|lra]|]. split; [|intros _ x []].
    exists [((10, 10), 1); ((10, 10), 2); ((20, 20), 3); ((20, 20), 4)]. split; [|split; [intros x Hx; exact Hx|reflexivity]].
    constructor; [cbn; intros [H|[H|[H|[]]]]; injection H; lra|]. constructor; [cbn; intros [H|[H|[]]]; injection H; lra|]. constructor; [cbn; intros [H|[]]; injection H; lra|]. constructor; [intros []|constructor].
  - assert (Forall (positive_item true) demo_aligned_data) as HP by (unfold demo_aligned_data, positive_item; repeat (apply Forall_cons; [cbn; repeat split; intros; lra|]); apply Forall_nil).
    exists (Some (100, 0, 0)), (from_plane LS_Dual_Power 100 0 0), (from_plane LS_Dual_Power 0 0 0). eexists. eexists.
    split; [apply (proj2 (C108_aligned LS_Dual_Power (Some (100, 0, 0)) 100 0 0 demo_aligned_data eq_refl HP (HA LS_Dual_Power eq_refl ltac:(discriminate)))); reflexivity|].
    split; [now apply from_plane_ok|]. split; [apply error_form; [now apply from_plane_ok|exact HP|reflexivity]|]. split; [apply error_form; [now apply from_plane_ok|exact HP|reflexivity]|].
    unfold sm. rewrite !(rsum_ext (fun i : R * (R * R) => (ln (fst i) - log_life LS_Dual_Power (from_plane LS_Dual_Power _ 0 0) (snd i)) ^ 2) _) by (intros i _; rewrite from_plane_life by reflexivity; reflexivity).
    cbn [demo_aligned_data map fst snd]. rewrite !rsum_cons. cbn [rsum fold_right].
    pose proof (ln_le_minus_1 1 ltac:(lra)) as B1. pose proof (ln_le_minus_1 2 ltac:(lra)) as B2. pose proof (ln_le_minus_1 3 ltac:(lra)) as B3. pose proof (ln_le_minus_1 4 ltac:(lra)) as B4.
    generalize dependent (ln 1). intros z1 B1. generalize dependent (ln 2). intros z2 B2. generalize dependent (ln 3). intros z3 B3. generalize dependent (ln 4). intros z4 B4. rewrite !Rmult_0_l. lra.
Qed.
Print Assumptions C108_aligned_refuted.
Example C108_case : ~ aligned LS_Dual_Exponential [(1, (1, 1)); (2, (1, 2)); (3, (2, 1)); (4, (2, 2))] /\ Forall (positive_item true) [(1, (1, 1)); (2, (1, 2)); (3, (2, 1)); (4, (2, 2))] /\
  two_values (stress_1 [(1, (1, 0)); (2, (3, 0))]).
Proof.
  split; [|split].
  - intros (a & b & c & Hab & H). pose proof (H _ (or_introl eq_refl)) as H1. pose proof (H _ (or_intror (or_introl eq_refl))) as H2. pose proof (H _ (or_intror (or_intror (or_introl eq_refl)))) as H3.
    cbn [scale_1 scale_2 fst snd] in *. lra.
  - unfold positive_item. repeat (apply Forall_cons; [cbn; repeat split; intros; lra|]). apply Forall_nil.
  - exists 1, 3. cbn. split; [tauto|]. split; [tauto|lra].
Qed.

(** ** C109 *)
Lemma check_used kle model a k : alt_check kle model a = Ok k ->
  used_stresses (is_dual model a) a (k_stress_1 k) (k_stress_2 k) (k_censored k) (k_censored_1 k) (k_censored_2 k) /\ k_failures k = g_failures a /\ k_CI k = g_CI a /\
  checks (is_dual model a) a (k_stress_1 k) (k_stress_2 k) (k_censored k) (k_censored_1 k) (k_censored_2 k) /\
  check_optimizer (g_optimizer a) = Ok (k_optimizer k) /\ check_use (is_dual model a) (g_use a) = Ok (k_use k).
Proof.
  intros H. destruct (alt_check_form kle model a) as [(e & E & _)|(s1 & s2 & rc & c1 & c2 & keys & fg & cg & o & u & HU & HC & HO & Hu & HG & HM & E)]; [congruence|].
  rewrite H in E. injection E as ->. cbn [k_stress_1 k_stress_2 k_censored k_censored_1 k_censored_2 k_failures k_CI k_optimizer k_use]. auto 10.
Qed.
Lemma check_same kle model model' a a' : is_dual model a = is_dual model' a' -> check_stresses (is_dual model a) a = check_stresses (is_dual model a) a' ->
  g_failures a = g_failures a' -> g_CI a = g_CI a' -> check_optimizer (g_optimizer a) = check_optimizer (g_optimizer a') -> check_use (is_dual model a) (g_use a) = check_use (is_dual model a) (g_use a') ->
  alt_check kle model a = alt_check kle model' a'.
Proof. intros E1 E2 E3 E4 E5 E6. unfold alt_check. rewrite <- E1, <- E2, <- E3, <- E4, <- E5, <- E6. reflexivity. Qed.
Lemma check_idem o q : check_optimizer o = Ok q -> check_optimizer q = Ok q.
Proof. intros H. apply check_optimizer_value in H. cbn in H. repeat destruct H as [<-|H]; try contradiction; reflexivity. Qed.
Lemma check_use_idem dual u q : check_use dual u = Ok q -> check_use dual (match q with None => None | Some u => Some (if dual then U_list [fst u; snd u] else U_number (fst u)) end) = Ok q.
Proof. unfold check_use. destruct u as [[x|l]|], dual; try discriminate; try (destruct l as [|x [|y [|? ?]]]; try discriminate); intros [= <-]; reflexivity. Qed.
Lemma checked_same kle m a k : alt_check kle None a = Ok k -> dual_stress m = is_dual None a -> alt_check kle (Some m) (checked_args (is_dual None a) k) = alt_check kle (Some m) a.
Proof.
  intros H Hm. destruct (check_used _ _ _ _ H) as (HU & EF & EC & _ & HO & Hu). apply check_same; cbn [is_dual g_failures g_CI g_optimizer g_use checked_args]; try (exact EF || exact EC || reflexivity).
  - destruct HU as (U1 & U2 & U3). rewrite Hm. destruct (is_dual None a); unfold check_stresses, checked_args; cbn [g_stress_1 g_stress_2 g_censored g_censored_1 g_censored_2]; rewrite U1.
    + rewrite U2. destruct (g_censored a); [destruct U3 as (-> & -> & ->)|destruct U3 as (-> & -> & ->)]; reflexivity.
    + rewrite U2. destruct (g_censored a); [destruct U3 as (-> & U4 & U5); rewrite U4, U5|destruct U3 as (-> & -> & ->)]; destruct (g_stress_2 a); try reflexivity; destruct (g_censored_2 a); reflexivity.
  - rewrite HO. now apply check_idem with (o := g_optimizer a).
  - rewrite Hm, Hu. now apply check_use_idem with (u := g_use a).
Qed.
(** Each model is fitted as its own fitter would on the arguments of the call. *)
Lemma fit_same kle d m noisy fit2P minimize diag a k : alt_check kle None a = Ok k -> dual_stress m = is_dual None a ->
  alt_fit kle d m noisy fit2P minimize diag (checked_args (is_dual None a) k) = alt_fit kle d m noisy fit2P minimize diag a.
Proof. intros H Hm. unfold alt_fit. now rewrite (checked_same kle m a k H Hm). Qed.
Lemma dual_seen kle a k : alt_check kle None a = Ok k -> negb (length (k_stress_2 k) =? 0)%nat = is_dual None a.
Proof.
  intros H. destruct (check_used _ _ _ _ H) as (HU & _ & _ & HC & _). destruct HU as (_ & U2 & _). destruct (is_dual None a) eqn:E.
  - destruct HC as (L1 & _ & L3 & _ & _ & _ & T & _). specialize (L3 eq_refl). destruct T as (x & y & Hx & _). destruct (k_stress_1 k); [destruct Hx|]. destruct (k_stress_2 k); [exfalso; cbn in *; lia|reflexivity].
  - now rewrite U2.
Qed.
Lemma name_inj n n' : name_string n = name_string n' -> n = n'.
Proof. destruct n as [[] []], n' as [[] []]; intros E; try reflexivity; discriminate E. Qed.
Lemma all_alt_models n : In n (single_models ++ dual_models).
Proof. destruct n as [[] []]; cbn; tauto. Qed.
Lemma fitted_models exclude dual n : In n (models_to_fit exclude dual) <-> dual_stress (snd n) = dual /\ ~ In (name_string n) (map title exclude).
Proof.
  unfold models_to_fit. rewrite filter_In. rewrite negb_true_iff. split.
  - intros [_ H]. assert (~ In (name_string n) (excluded_models exclude dual)) as N by (intros HI; apply str_in_In in HI; congruence). clear H. unfold excluded_models in N. rewrite in_app_iff in N. split.
    + destruct (dual_stress (snd n)) eqn:E, dual; try reflexivity; exfalso; apply N; right; apply in_map; destruct n as [[] []]; try discriminate; cbn; tauto.
    + intros HI. apply N. left. apply filter_In. split; [exact HI|]. apply str_in_In. apply in_map. apply all_alt_models.
  - intros [E N]. split; [apply all_alt_models|]. apply not_true_iff_false. intros H. apply str_in_In in H. unfold excluded_models in H. apply in_app_iff in H. destruct H as [H|H].
    + apply filter_In in H. destruct H as [H _]. contradiction.
    + apply in_map_iff in H. destruct H as (n' & En & Hn). apply name_inj in En. subst n'. destruct dual; destruct n as [[] []]; try discriminate E; cbn in Hn; repeat destruct Hn as [Hn|Hn]; try discriminate Hn; exact Hn.
Qed.
Lemma models_NoDup exclude dual : NoDup (models_to_fit exclude dual).
Proof. unfold models_to_fit. apply NoDup_filter. unfold single_models, dual_models. cbn [flat_map app]. repeat (constructor; [cbn; intuition discriminate|]). constructor. Qed.
Lemma fit_rows_value fit ns rows : fit_rows fit ns = Ok rows -> Forall2 (fun n w => exists r, fit n = Ok r /\ w = row_of n r) ns rows.
Proof.
  revert rows. induction ns as [|n ns IH]; intros rows H; cbn [fit_rows] in H; [injection H as <-; constructor|].
  apply bind_ok in H. destruct H as (r & H1 & H). apply bind_ok in H. destruct H as (rest & H2 & H). injection H as <-. constructor; [eauto|now apply IH].
Qed.
Lemma alt_sort_inv sort by_ rows df2 : alt_sorts sort -> alt_sort_rows sort by_ rows = Ok df2 -> Permutation rows df2 /\ df2 <> [] /\
  ((upper by_ = "BIC"%string \/ In (upper by_) ["AICC"; "AIC"]%string /\ forallb w_has_AICc rows = false) /\ df2 = sort w_BIC rows \/
   In (upper by_) ["AICC"; "AIC"]%string /\ forallb w_has_AICc rows = true /\ df2 = sort w_AICc_value rows \/
   In (upper by_) loglik_spellings /\ df2 = sort (fun r => Rabs (w_loglik r)) rows).
Proof.
  intros Hs H. unfold alt_sort_rows in H. cbv zeta in H. apply bind_ok in H. destruct H as (d & H1 & H2). assert (d = df2 /\ df2 <> []) as [-> Hne] by (destruct d; [discriminate|injection H2 as <-; split; [reflexivity|discriminate]]). clear H2.
  assert (forall key, Permutation rows (sort key rows)) as HP by (intros; apply Hs). clear Hs.
  destruct (str_in (upper by_) ["AIC"; "AICC"]%string) eqn:EA; [apply str_in_In in EA|].
  - destruct (forallb w_has_AICc rows) eqn:EF; cbn [andb negb] in H1.
    + assert (In (upper by_) ["AICC"; "AIC"]%string) as EA' by (cbn in *; tauto). assert (String.eqb (upper by_) "BIC" = false) as E1 by (apply String.eqb_neq; intros E; rewrite E in EA; cbn in EA; intuition discriminate).
      rewrite E1 in H1. assert (str_in (upper by_) ["AICC"; "AIC"]%string = true) as E2 by now apply str_in_In. rewrite E2 in H1. apply (f_equal (fun r => match r with Ok v => v | Err _ => [] end)) in H1. subst df2. split; [apply HP|]. split; [exact Hne|]. right. left. auto.
    + change (upper "BIC") with "BIC"%string in H1. rewrite String.eqb_refl in H1. apply (f_equal (fun r => match r with Ok v => v | Err _ => [] end)) in H1. subst df2. split; [apply HP|]. split; [exact Hne|]. left. split; [right; split; [cbn in *; tauto|reflexivity]|reflexivity].
  - cbn [andb] in H1. destruct (String.eqb_spec (upper by_) "BIC") as [E|N].
    + apply (f_equal (fun r => match r with Ok v => v | Err _ => [] end)) in H1. subst df2. split; [apply HP|]. split; [exact Hne|]. left. auto.
    + destruct (str_in (upper by_) ["AICC"; "AIC"]%string) eqn:E2.
      * apply str_in_In in E2. exfalso. apply not_true_iff_false in EA. apply EA. apply str_in_In. cbn in *. tauto.
      * destruct (str_in (upper by_) loglik_names) eqn:E3; [|discriminate]. apply str_in_In in E3. apply (f_equal (fun r => match r with Ok v => v | Err _ => [] end)) in H1. subst df2. split; [apply HP|]. split; [exact Hne|]. right. right. split; [exact E3|reflexivity].
Qed.
(** The 24 fitters with their oracles. *)
Record oracles := { o_noisy : option (R * R * R); o_fit2P : dname -> list R -> list R -> R * R; o_minimize : opt -> ls_params * R -> bool * (ls_params * R); o_diag : ls_params * R -> option (list R) }.
Definition alt_fitter (kle : R * R -> R * R -> bool) (O : alt_name -> oracles) (n : alt_name) (a : alt_args) : result alt_result :=
  alt_fit kle (fst n) (snd n) (o_noisy (O n)) (o_fit2P (O n)) (o_minimize (O n)) (o_diag (O n)) a.
Lemma everything_inv kle O sort exclude by_ a df2 best use : Fit_Everything_ALT kle (alt_fitter kle O) sort exclude by_ a = Ok (df2, best, use) ->
  exists k rows w rest, alt_check kle None a = Ok k /\ Forall2 (fun n w => exists r, alt_fitter kle O n a = Ok r /\ w = row_of n r) (models_to_fit exclude (is_dual None a)) rows /\
    alt_sort_rows sort by_ rows = Ok df2 /\ df2 = w :: rest /\ best = w_name w /\ use = match k_use k with None => None | Some u => Some (best_at_use best (w_params w) (w_shape w) u) end.
Proof.
  intros H. unfold Fit_Everything_ALT in H. apply bind_ok in H. destruct H as (k & Hk & H). cbv zeta in H. rewrite (dual_seen _ _ _ Hk) in H. apply bind_ok in H. destruct H as (rows & HR & H).
  apply bind_ok in H. destruct H as (d & HS & H). destruct d as [|w rest]; [discriminate|]. injection H as <- <- <-. exists k, rows, w, rest. split; [exact Hk|]. split; [|auto].
  apply fit_rows_value in HR. remember (models_to_fit exclude (is_dual None a)) as ns eqn:En. assert (forall n, In n ns -> dual_stress (snd n) = is_dual None a) as HN by (intros n Hn; subst ns; now apply fitted_models in Hn).
  clear En HS. induction HR as [|n w' ns rows (r & E & ->) HR IH]; constructor; [|apply IH; intros n' Hn'; apply HN; now right].
  exists r. split; [|reflexivity]. unfold alt_fitter in *. rewrite (fit_same kle (fst n) (snd n) _ _ _ _ a k Hk) in E; [exact E|apply HN; now left].
Qed.

(** What is fitted, and how. *)
Theorem C109_fitted kle O sort exclude by_ a df2 best use : alt_sorts sort -> Fit_Everything_ALT kle (alt_fitter kle O) sort exclude by_ a = Ok (df2, best, use) ->
  exists ns rows, NoDup ns /\
    (forall n, In n ns <-> (dual_stress (snd n) = true <-> g_stress_2 a <> None) /\ ~ In (name_string n) (map title exclude)) /\
    Forall2 (fun n w => exists r, alt_fitter kle O n a = Ok r /\ row_for n r w) ns rows /\ Permutation rows df2 /\ exists w rest, df2 = w :: rest /\ best = w_name w.
Proof.
  intros Hs H. destruct (everything_inv _ _ _ _ _ _ _ _ _ H) as (k & rows & w & rest & _ & HF & HS & -> & -> & _). exists (models_to_fit exclude (is_dual None a)), rows.
  split; [apply models_NoDup|]. split; [|split; [|split; [now apply (alt_sort_inv sort by_)|eauto]]].
  - intros n. rewrite fitted_models. cbn [is_dual]. destruct (g_stress_2 a) as [s|], (dual_stress (snd n)); intuition congruence.
  - clear HS H. induction HF as [|n w' ns rows (r & E & ->) HF IH]; constructor; [|exact IH]. exists r. split; [exact E|]. unfold row_for. cbn. auto 10.
Qed.
Print Assumptions C109_fitted.
Lemma sorted_impl {A} (P Q : A -> A -> Prop) (l : list A) : (forall a b, In a l -> In b l -> P a b -> Q a b) -> StronglySorted P l -> StronglySorted Q l.
Proof.
  intros H S0. induction S0 as [|a l S0 IH HF]; constructor.
  - apply IH. intros x y Hx Hy. apply H; now right.
  - rewrite Forall_forall in *. intros y Hy. apply H; [now left|now right|now apply HF].
Qed.
(** The order of the table. Any capitalisation; the AICc gives way to the BIC when there are too few data for it. *)
Theorem C109_order kle O sort exclude by_ a df2 best use : alt_sorts sort -> Fit_Everything_ALT kle (alt_fitter kle O) sort exclude by_ a = Ok (df2, best, use) ->
  (upper by_ = "BIC"%string -> StronglySorted (no_worse Least_BIC) df2) /\
  (upper by_ = "AICC"%string \/ upper by_ = "AIC"%string ->
     ((forall w, In w df2 -> w_AICc w <> None) -> StronglySorted (no_worse Least_AICc) df2) /\ ((exists w, In w df2 /\ w_AICc w = None) -> StronglySorted (no_worse Least_BIC) df2)) /\
  (upper by_ = "BIC"%string \/ upper by_ = "AICC"%string \/ upper by_ = "AIC"%string \/ In (upper by_) loglik_spellings).
Proof.
  intros Hs H. destruct (everything_inv _ _ _ _ _ _ _ _ _ H) as (k & rows & w & rest & _ & _ & HS & _). destruct (alt_sort_inv sort by_ rows df2 Hs HS) as (HP & _ & HC).
  assert (forallb w_has_AICc rows = true <-> forall w, In w df2 -> w_AICc w <> None) as HA.
  { rewrite forallb_forall. split; intros HH v Hv.
    - specialize (HH v (Permutation_in _ (Permutation_sym HP) Hv)). unfold w_has_AICc in HH. destruct (w_AICc v); congruence.
    - specialize (HH v (Permutation_in _ HP Hv)). unfold w_has_AICc. destruct (w_AICc v); congruence. }
  assert (forall s, In s ["AICC"; "AIC"]%string -> s <> "BIC"%string /\ ~ In s loglik_spellings) as D.
  { intros s Hin. cbn in Hin. destruct Hin as [<-|[<-|[]]]; (split; [discriminate|cbn; intuition discriminate]). }
  assert (~ In "BIC"%string loglik_spellings) as D' by (cbn; intuition discriminate).
  split; [|split].
  - intros E. destruct HC as [[_ ->]|[(E' & _)|[E' _]]]; [apply Hs|exfalso..]; rewrite E in E'; [now destruct (D _ E')|contradiction].
  - intros E. assert (In (upper by_) ["AICC"; "AIC"]%string) as Hin by (cbn; intuition congruence). destruct (D _ Hin) as [D1 D2]. split.
    + intros Hall. destruct HC as [[[E'|[_ E']] _]|[(_ & _ & ->)|[E' _]]]; [contradiction|exfalso; apply HA in Hall; congruence| |contradiction].
      eapply sorted_impl; [|apply (proj2 (Hs w_AICc_value rows))]. intros x y Hx Hy Hxy. cbn [no_worse]. specialize (Hall x Hx) as Nx. specialize (Hall y Hy) as Ny. cbv beta in Hxy. unfold w_AICc_value in Hxy. destruct (w_AICc x), (w_AICc y); congruence || exact Hxy.
    + intros (v & Hv & Hn). destruct HC as [[_ ->]|[(_ & E' & _)|[E' _]]]; [apply Hs|exfalso; now apply (proj1 HA E' v Hv)|contradiction].
  - destruct HC as [[[E|[E _]] _]|[(E & _)|[E _]]]; cbn in E |- *; intuition congruence.
Qed.
Print Assumptions C109_order.
(** By log-likelihood: missing is the case of a positive log-likelihood, see C109_loglik_refuted. *)
Theorem C109_loglik_partial kle O sort exclude by_ a df2 best use : alt_sorts sort -> Fit_Everything_ALT kle (alt_fitter kle O) sort exclude by_ a = Ok (df2, best, use) ->
  In (upper by_) loglik_spellings -> (forall w, In w df2 -> w_loglik w <= 0) -> StronglySorted (no_worse Greatest_loglik) df2.
Proof.
  intros Hs H Hby Hneg. destruct (everything_inv _ _ _ _ _ _ _ _ _ H) as (k & rows & w & rest & _ & _ & HS & _). destruct (alt_sort_inv sort by_ rows df2 Hs HS) as (HP & _ & HC).
  destruct HC as [[[E|[E _]] _]|[(E & _)|[_ ->]]]; [exfalso..|].
  - rewrite E in Hby. cbn in Hby. intuition discriminate.
  - cbn in E. destruct E as [E|[E|[]]]; rewrite <- E in Hby; cbn in Hby; intuition discriminate.
  - cbn in E. destruct E as [E|[E|[]]]; rewrite <- E in Hby; cbn in Hby; intuition discriminate.
  - eapply sorted_impl; [|apply (proj2 (Hs (fun r => Rabs (w_loglik r)) rows))]. intros x y Hx Hy Hxy. cbn [no_worse]. cbv beta in Hxy. rewrite !Rabs_left1 in Hxy by (now apply Hneg). lra.
Qed.
Print Assumptions C109_loglik_partial.
Lemma fit_rows_ok fit ns : (forall n, In n ns -> exists r, fit n = Ok r) -> exists rows, fit_rows fit ns = Ok rows.
Proof.
  induction ns as [|n ns IH]; intros H; cbn [fit_rows]; [eauto|]. destruct (H n (or_introl eq_refl)) as [r ->]. destruct IH as [rows E]; [intros n' Hn'; apply H; now right|]. rewrite E. cbn [bind]. eauto.
Qed.
Lemma everything_steps kle O sort exclude by_ a k : alt_check kle None a = Ok k ->
  (forall n, (dual_stress (snd n) = true <-> g_stress_2 a <> None) -> exists r, alt_fitter kle O n a = Ok r) ->
  exists rows, Forall2 (fun n w => exists r, alt_fitter kle O n a = Ok r /\ w = row_of n r) (models_to_fit exclude (is_dual None a)) rows /\
   Fit_Everything_ALT kle (alt_fitter kle O) sort exclude by_ a =
    let! df2 := alt_sort_rows sort by_ rows in
    match df2 with [] => Err IndexError | best :: _ => Ok (df2, w_name best, match k_use k with None => None | Some u => Some (best_at_use (w_name best) (w_params best) (w_shape best) u) end) end.
Proof.
  intros Hk Hfit. assert (forall n, In n (models_to_fit exclude (is_dual None a)) -> alt_fitter kle O n (checked_args (is_dual None a) k) = alt_fitter kle O n a) as HS.
  { intros n Hn. apply fit_same; [exact Hk|]. now apply fitted_models in Hn. }
  destruct (fit_rows_ok (fun n => alt_fitter kle O n (checked_args (is_dual None a) k)) (models_to_fit exclude (is_dual None a))) as [rows HR].
  { intros n Hn. rewrite (HS n Hn). apply Hfit. apply fitted_models in Hn. destruct Hn as [-> _]. cbn [is_dual]. destruct (g_stress_2 a); intuition congruence. }
  exists rows. split.
  - apply fit_rows_value in HR. remember (models_to_fit exclude (is_dual None a)) as ns eqn:En. clear En. induction HR as [|n w ns rows (r & E & ->) HR IH]; constructor; [|apply IH; intros; apply HS; now right].
    exists r. split; [|reflexivity]. rewrite <- (HS n (or_introl eq_refl)). exact E.
  - unfold Fit_Everything_ALT. rewrite Hk. cbn [bind]. rewrite (dual_seen _ _ _ Hk). cbv zeta. rewrite HR. cbn [bind]. reflexivity.
Qed.
(** An unknown sort_by, or everything excluded. *)
Theorem C109_errors kle O sort exclude by_ a : total_order kle -> alt_sorts sort -> acceptable (is_dual None a) a ->
  (forall n, (dual_stress (snd n) = true <-> g_stress_2 a <> None) -> exists r, alt_fitter kle O n a = Ok r) ->
  (upper by_ <> "BIC" /\ upper by_ <> "AICC" /\ upper by_ <> "AIC" /\ ~ In (upper by_) loglik_spellings)%string \/ (forall n, In (name_string n) (map title exclude)) ->
  Fit_Everything_ALT kle (alt_fitter kle O) sort exclude by_ a = Err ValueError.
Proof.
  intros Ho Hs Ha Hfit Hbad. destruct (proj2 (checks_acceptable kle None a Ho) Ha) as [k Hk]. destruct (everything_steps kle O sort exclude by_ a k Hk Hfit) as (rows & HF & ->).
  enough (alt_sort_rows sort by_ rows = Err ValueError) as -> by reflexivity. destruct Hbad as [(N1 & N2 & N3 & N4)|Hex].
  - unfold alt_sort_rows. assert (str_in (upper by_) ["AIC"; "AICC"]%string = false) as E1 by (apply not_true_iff_false; intros E; apply str_in_In in E; cbn in E; intuition congruence).
    assert (str_in (upper by_) ["AICC"; "AIC"]%string = false) as E2 by (apply not_true_iff_false; intros E; apply str_in_In in E; cbn in E; intuition congruence).
    assert (str_in (upper by_) loglik_names = false) as E3 by (apply not_true_iff_false; intros E; apply str_in_In in E; contradiction).
    rewrite E1. cbn [andb]. rewrite E2, E3. destruct (String.eqb_spec (upper by_) "BIC"); [contradiction|reflexivity].
  - assert (models_to_fit exclude (is_dual None a) = []) as E.
    { destruct (models_to_fit exclude (is_dual None a)) as [|n ns] eqn:E; [reflexivity|]. exfalso. assert (In n (models_to_fit exclude (is_dual None a))) as Hn by (rewrite E; now left). apply fitted_models in Hn. destruct Hn as [_ Hn]. apply Hn, Hex. }
    rewrite E in HF. inversion HF. subst rows. unfold alt_sort_rows. cbn [forallb negb]. rewrite andb_false_r.
    assert (forall key, sort key [] = []) as Z by (intros key; apply Permutation_nil, Hs). rewrite !Z. destruct (String.eqb (upper by_) "BIC"); [reflexivity|]. destruct (str_in (upper by_) ["AICC"; "AIC"]%string); [reflexivity|]. destruct (str_in (upper by_) loglik_names); reflexivity.
Qed.
Print Assumptions C109_errors.
(** The distribution at use stress. Missing: dual stress models with the Lognormal or Exponential distribution, see
    C109_use_refuted. *)
Theorem C109_use_partial kle O sort exclude by_ a df2 best use u : alt_sorts sort -> Fit_Everything_ALT kle (alt_fitter kle O) sort exclude by_ a = Ok (df2, best, use) ->
  use_level (is_dual None a) a u -> dual_stress (snd best) = false \/ fst best = A_Weibull \/ fst best = A_Normal ->
  exists r, alt_fitter kle O best a = Ok r /\ use = a_use r /\
   (0 < fst u -> scale_ok (snd best) (a_params r) -> exists D, use = Some D /\ life_distribution (fst best) (snd best) (a_params r) (a_shape r) u D).
Proof.
  intros Hs H Hu Hb. destruct (everything_inv _ _ _ _ _ _ _ _ _ H) as (k & rows & w & rest & Hk & HF & HS & E & Eb & Euse).
  destruct (alt_sort_inv sort by_ rows df2 Hs HS) as (HP & _). assert (In w rows) as Hw by (apply (Permutation_in _ (Permutation_sym HP)); rewrite E; now left).
  assert (exists n r, In n (models_to_fit exclude (is_dual None a)) /\ alt_fitter kle O n a = Ok r /\ w = row_of n r) as (n & r & Hn & Hr & Ew).
  { clear -HF Hw. induction HF as [|n w' ns rows (r & E & ->) HF IH]; [destruct Hw|]. destruct Hw as [<-|Hw]; [exists n, r; split; [now left|auto]|]. destruct (IH Hw) as (n' & r' & A1 & A2). exists n', r'. split; [now right|exact A2]. }
  subst w. cbn [row_of w_name w_params w_shape] in *. subst best. exists r. split; [exact Hr|]. apply fitted_models in Hn. destruct Hn as [Hd _].
  destruct (check_used _ _ _ _ Hk) as (_ & _ & _ & _ & _ & HUse).
  assert (k_use k = Some u) as Eu.
  { unfold use_level in Hu. destruct (is_dual None a); [rewrite Hu in HUse; cbn in HUse; injection HUse as <-; now destruct u|]. destruct Hu as (x & Hu & ->). rewrite Hu in HUse. cbn in HUse. injection HUse as <-. reflexivity. }
  rewrite Eu in Euse. unfold alt_fitter in Hr. destruct (alt_fit_inv _ _ _ _ _ _ _ _ _ Hr) as (k' & guess & fits & lims & Hk' & _ & _ & _ & _ & _ & _ & HUse' & _).
  assert (k_use k' = Some u) as Eu'. { destruct (check_used _ _ _ _ Hk') as (_ & _ & _ & _ & _ & X). cbn [is_dual] in X. rewrite Hd in X. rewrite HUse in X. congruence. }
  rewrite Eu' in HUse'. assert (use = a_use r) as EU.
  { rewrite Euse, HUse'. f_equal. unfold best_at_use. destruct n as [d m]. cbn [fst snd] in *. destruct d, (dual_stress m); try reflexivity; exfalso; intuition discriminate. }
  split; [exact EU|]. intros Hpos Hsc. exists (alt_distribution (fst n) (alt_life (snd n) (a_params r) (fst u) (snd u)) (a_shape r)). split; [rewrite EU; exact HUse'|].
  now apply life_distribution_exists.
Qed.
Print Assumptions C109_use_partial.

Lemma const_estimate kle d m noisy fit2P minimize diag a r f rc x : alt_fit kle d m noisy fit2P minimize diag a = Ok r -> data_of (dual_stress m) a f rc ->
  (forall o g, minimize o g = (true, x)) -> (a_params r, a_shape r) = x.
Proof.
  intros H HD Hm. destruct (fit_choice _ _ _ _ _ _ _ _ _ _ _ H HD) as (guess & shape & q & _ & HO & HM & _). set (LLf := fun x : ls_params * R => alt_LL d m (fst x) (snd x) f rc / 2) in *.
  pose proof (runs_const minimize LLf (fun _ => x) (guess, shape) Hm) as K. destruct (mle_spec minimize LLf q (guess, shape) _ HM) as (os & Hos & [(o' & x' & E & (b & Hb & _ & _ & Ex) & _)|[_ HF]]).
  - injection E as _ _ E. unfold tried in Hb. apply attempts_In in Hb. destruct Hb as [_ Hb]. unfold a_x in Ex. rewrite Hb, (proj2 (K (fst b))) in Ex. congruence.
  - exfalso. apply check_optimizer_value in HO. assert (os <> []) as Hne by (cbn in HO; repeat destruct HO as [<-|HO]; try contradiction; cbn in Hos; injection Hos as <-; discriminate).
    destruct os as [|o0 os]; [congruence|]. unfold tried in HF. cbn [attempts] in HF.
    match type of HF with forall a0, In a0 (if ?b then _ else _) -> _ => destruct b end; specialize (HF _ (or_introl eq_refl)); unfold a_ok in HF; cbn [fst snd] in HF; rewrite (proj1 (K o0)) in HF; discriminate.
Qed.
(** A sort, and fitters whose optimizers return given estimates. *)
Fixpoint row_insert (key : alt_row -> R) (a : alt_row) (l : list alt_row) : list alt_row :=
  match l with [] => [a] | b :: r => if Rle_dec (key a) (key b) then a :: b :: r else b :: row_insert key a r end.
Definition row_sort (key : alt_row -> R) (l : list alt_row) : list alt_row := fold_right (row_insert key) [] l.
Lemma row_sorts : alt_sorts row_sort.
Proof.
  intros key rows. assert (forall a l, Permutation (a :: l) (row_insert key a l)) as HP.
  { intros a. induction l as [|b l IH]; cbn [row_insert]; [reflexivity|]. destruct (Rle_dec _ _); [reflexivity|]. rewrite perm_swap. now constructor. }
  assert (forall a l, StronglySorted (fun a b => key a <= key b) l -> StronglySorted (fun a b => key a <= key b) (row_insert key a l)) as HS.
  { intros a l S0. induction S0 as [|b l S0 IH HF]; cbn [row_insert]; [constructor; constructor|]. destruct (Rle_dec (key a) (key b)) as [L|L].
    - constructor; [now constructor|]. constructor; [exact L|]. rewrite Forall_forall in *. intros x Hx. specialize (HF x Hx). cbv beta in *. lra.
    - constructor; [exact IH|]. rewrite Forall_forall in *. intros x Hx. apply (Permutation_in _ (Permutation_sym (HP a l))) in Hx. destruct Hx as [<-|Hx]; [lra|now apply HF]. }
  induction rows as [|a rows [IH1 IH2]]; cbn [row_sort fold_right]; [split; [reflexivity|constructor]|]. split; [etransitivity; [|apply HP]; now constructor|now apply HS].
Qed.
Definition returning (x : alt_name -> ls_params * R) (n : alt_name) : oracles :=
  {| o_noisy := None; o_fit2P := fun _ _ _ => (1, 1); o_minimize := fun _ _ => (true, x n); o_diag := fun _ => Some [] |}.
Definition all_but (keep : list alt_name) : list string := filter (fun s => negb (str_in s (map name_string keep))) (map name_string (single_models ++ dual_models)).
Definition demo_dual : alt_args :=
  {| g_failures := [1; 2; 3; 4]; g_stress_1 := Some [10; 10; 20; 20]; g_stress_2 := Some [5; 15; 5; 15]; g_censored := None; g_censored_1 := None; g_censored_2 := None;
     g_CI := 19 / 20; g_optimizer := None; g_use := Some (U_list [1; 1]) |}.
Lemma demo_dual_acceptable : acceptable true demo_dual.
Proof.
  exists [10; 10; 20; 20], [5; 15; 5; 15], [], [], []. split; [unfold used_stresses; cbn; auto|]. cbn [demo_dual g_failures g_CI g_optimizer g_use known_optimizer use_fits].
  split; [reflexivity|]. split; [reflexivity|]. split; [auto|]. split; [intros t [H|[]]; cbn in H; destruct H as [<-|[<-|[<-|[<-|[]]]]]; lra|].
  split; [lra|]. split; [exact I|]. split; [auto|]. split; [exists 10, 20; cbn; split; [tauto|]; split; [tauto|lra]|]. split; [intros _; exists 5, 15; cbn; split; [tauto|]; split; [tauto|lra]|]. split; [|intros _ x []].
  exists [((10, 5), 1); ((10, 15), 2); ((20, 5), 3); ((20, 15), 4)]. split; [|split; [intros x Hx; exact Hx|reflexivity]].
  constructor; [cbn; intros [H|[H|[H|[]]]]; injection H; lra|]. constructor; [cbn; intros [H|[H|[]]]; injection H; lra|]. constructor; [cbn; intros [H|[]]; injection H; lra|]. constructor; [intros []|constructor].
Qed.
Lemma demo_dual_fitted kle d m noisy fit2P minimize diag : total_order kle -> dual_stress m = true -> (forall est, diag est <> None) -> exists r, alt_fit kle d m noisy fit2P minimize diag demo_dual = Ok r.
Proof.
  intros Ho Hd HD. apply C105_fitted_partial; [exact Ho|rewrite Hd; exact demo_dual_acceptable| | |now left].
  - intros s1 [= <-]. repeat (apply Forall_cons; [lra|]). apply Forall_nil.
  - rewrite Hd. intros f rc (s1 & s2 & c & c1 & c2 & (U1 & U2 & _) & -> & _) s. cbn in U1, U2. injection U1 as <-. injection U2 as <-. cbn [demo_dual g_failures pairs_of map combine snd fst at_stress]. left.
    destruct s as [x y]. destruct (Rpair_dec (10, 5) (x, y)) as [E1|N1], (Rpair_dec (10, 15) (x, y)) as [E2|N2], (Rpair_dec (20, 5) (x, y)) as [E3|N3], (Rpair_dec (20, 15) (x, y)) as [E4|N4]; cbn [length]; try lia; exfalso;
      repeat match goal with H : (_, _) = (_, _) |- _ => injection H; clear H; intros end; lra.
Qed.
(** With the Lognormal or the Exponential distribution on two stresses, the distribution reported at the use stress
    is not the one that the best model's own fitter reports. *)
Theorem C109_use_refuted d : d = A_Lognormal \/ d = A_Exponential -> acceptable true demo_dual /\ forall kle, total_order kle -> exists O sort exclude df2 r D D',
  alt_sorts sort /\ Fit_Everything_ALT kle (alt_fitter kle O) sort exclude "BIC" demo_dual = Ok (df2, (d, LS_Dual_Power), Some D) /\
  alt_fitter kle O (d, LS_Dual_Power) demo_dual = Ok r /\ a_use r = Some D' /\ life_distribution d LS_Dual_Power (a_params r) (a_shape r) (1, 1) D' /\ D <> D'.
Proof.
  intros Hd. split; [exact demo_dual_acceptable|]. intros kle Ho.
  set (x := ({| l_0 := 2; l_1 := 0; l_2 := 0 |}, 1)). set (O := returning (fun _ => x)). set (ex := all_but [(d, LS_Dual_Power)]).
  assert (forall n, dual_stress (snd n) = true -> exists r, alt_fitter kle O n demo_dual = Ok r) as HF by (intros n Hn; apply demo_dual_fitted; [exact Ho|exact Hn|discriminate]).
  destruct (proj2 (checks_acceptable kle None demo_dual Ho) demo_dual_acceptable) as [k Hk].
  destruct (everything_steps kle O row_sort ex "BIC" demo_dual k Hk) as (rows & HR & HE); [intros n Hn; apply HF, Hn; discriminate|].
  assert (models_to_fit ex (is_dual None demo_dual) = [(d, LS_Dual_Power)]) as EM by (destruct Hd as [-> | ->]; vm_compute; reflexivity).
  rewrite EM in HR. inversion HR as [|n w ns ws (r & Hr & Ew) HR']; subst. inversion HR'; subst. clear HR HR'.
  change (alt_sort_rows row_sort "BIC" [row_of (d, LS_Dual_Power) r]) with (Ok [row_of (d, LS_Dual_Power) r]) in HE. cbn [bind row_of w_name w_params w_shape] in HE.
  assert (data_of true demo_dual (combine [1; 2; 3; 4] (combine [10; 10; 20; 20] [5; 15; 5; 15])) []) as HD by (exists [10; 10; 20; 20], [5; 15; 5; 15], [], [], []; repeat split).
  pose proof (const_estimate _ _ _ _ _ _ _ _ _ _ _ x Hr HD (fun o g => eq_refl)) as EX. injection EX as EP ES.
  assert (k_use k = Some (1, 1)) as EU by (destruct (check_used _ _ _ _ Hk) as (_ & _ & _ & _ & _ & X); cbn in X; congruence). rewrite EU in HE.
  destruct (alt_fit_inv _ _ _ _ _ _ _ _ _ Hr) as (k' & guess & fits & lims & Hk' & _ & _ & _ & _ & _ & _ & HUse' & _).
  assert (k_use k' = Some (1, 1)) as EU' by (destruct (check_used _ _ _ _ Hk') as (_ & _ & _ & _ & _ & X); cbn in X; congruence). rewrite EU' in HUse'. cbn [fst snd] in HUse'.
  exists O, row_sort, ex. eexists. exists r. eexists. eexists. split; [exact row_sorts|]. split; [exact HE|]. split; [exact Hr|]. split; [exact HUse'|].
  assert (scale_ok LS_Dual_Power (a_params r)) as Hsc by (rewrite EP; cbn; lra).
  split; [apply (life_distribution_exists d LS_Dual_Power (a_params r) (a_shape r) (1, 1)); [cbn; lra|exact Hsc]|].
  assert (alt_life LS_Dual_Power (a_params r) 1 1 = 2) as EL by (rewrite EP; cbn [alt_life l_0 l_1 l_2]; unfold Rpower; rewrite !Rmult_0_l, exp_0; ring).
  unfold best_at_use. cbn [fst snd dual_stress]. rewrite EL. destruct Hd as [-> | ->]; cbn [alt_distribution]; intros E; injection E as E.
  - assert (ln 2 = 1 / 2) as E' by lra. pose proof (exp_le_3) as E3. assert (exp (ln 2) = exp (1 / 2)) as EE by now f_equal. rewrite exp_ln in EE by lra. assert (exp 1 = exp (1 / 2) * exp (1 / 2)) as E1 by (rewrite <- exp_plus; f_equal; lra). rewrite <- EE in E1. lra.
  - lra.
Qed.
Print Assumptions C109_use_refuted.
(** Positive log-likelihoods: the model nearest to zero comes first. *)
Theorem C109_loglik_refuted : acceptable false demo_short /\ forall kle, total_order kle -> exists O sort exclude df2 best use,
  alt_sorts sort /\ Fit_Everything_ALT kle (alt_fitter kle O) sort exclude "LL" demo_short = Ok (df2, best, use) /\
  exists w v rest, df2 = w :: rest /\ In v rest /\ 0 < w_loglik w < w_loglik v.
Proof.
  split; [exact demo_short_acceptable|]. intros kle Ho.
  set (x := fun n : alt_name => match snd n with LS_Power => ({| l_0 := exp (- (1)); l_1 := 0; l_2 := 0 |}, 1) | _ => ({| l_0 := 0; l_1 := exp (- (2)); l_2 := 0 |}, 1) end).
  set (O := returning x). set (n1 := (A_Exponential, OtherModel.LS_Exponential)). set (n2 := (A_Exponential, LS_Power)). set (ex := all_but [n1; n2]).
  assert (forall n, dual_stress (snd n) = false -> exists r, alt_fitter kle O n demo_short = Ok r) as HF by (intros n Hn; apply demo_short_fitted; [exact Ho|exact Hn|discriminate]).
  destruct (proj2 (checks_acceptable kle None demo_short Ho) demo_short_acceptable) as [k Hk].
  destruct (everything_steps kle O row_sort ex "LL" demo_short k Hk) as (rows & HR & HE); [intros n Hn; apply HF; cbn in Hn; destruct (dual_stress (snd n)); [exfalso; now apply Hn|reflexivity]|].
  assert (models_to_fit ex (is_dual None demo_short) = [n1; n2]) as EM by (vm_compute; reflexivity).
  rewrite EM in HR. inversion HR as [|n w ns ws (r1 & Hr1 & Ew1) HR']; subst. inversion HR' as [|n w ns ws' (r2 & Hr2 & Ew2) HR'']; subst. inversion HR''; subst. clear HR HR' HR''.
  assert (forall m r, dual_stress m = false -> alt_fitter kle O (A_Exponential, m) demo_short = Ok r -> w_loglik (row_of (A_Exponential, m) r) = - alt_LL A_Exponential m (fst (x (A_Exponential, m))) (snd (x (A_Exponential, m))) [(1 / 100, (10, 0)); (2 / 100, (20, 0)); (3 / 100, (30, 0))] []) as HL.
  { intros m r Hm Hr. assert (data_of (dual_stress m) demo_short [(1 / 100, (10, 0)); (2 / 100, (20, 0)); (3 / 100, (30, 0))] []) as HD by (rewrite Hm; exact demo_short_data).
    pose proof (const_estimate _ _ _ _ _ _ _ _ _ _ _ (x (A_Exponential, m)) Hr HD (fun o g => eq_refl)) as EX. rewrite <- EX. cbn [fst snd row_of w_loglik].
    destruct (alt_fit_inv _ _ _ _ _ _ _ _ _ Hr) as (k' & guess & fits & lims & Hk' & _ & _ & _ & _ & _ & EG & _). rewrite EG. cbn [goodness loglik fst snd].
    pose proof (check_data_used _ _ _ _ Hk') as (HU & _ & EF & _). destruct (items_data m _ k' HU EF _ _ HD) as [<- <-]. lra. }
  pose proof (HL OtherModel.LS_Exponential r1 eq_refl Hr1) as L1. pose proof (HL LS_Power r2 eq_refl Hr2) as L2. fold n1 in L1. fold n2 in L2. unfold x in L1, L2. cbn [snd fst n1 n2] in L1, L2.
  assert (w_loglik (row_of n1 r1) = 6 - 6 / 100 * exp 2) as V1.
  { rewrite L1. unfold alt_LL. cbn [map alt_logf alt_life fst snd l_0 l_1]. rewrite !rsum_cons. replace (0 / 10) with 0 by lra. replace (0 / 20) with 0 by lra. replace (0 / 30) with 0 by lra. rewrite exp_0, Rmult_1_r.
    replace (1 / exp (- (2))) with (exp 2) by (rewrite exp_Ropp; field; apply Rgt_not_eq, exp_pos). rewrite ln_exp. cbn. lra. }
  assert (w_loglik (row_of n2 r2) = 3 - 6 / 100 * exp 1) as V2.
  { rewrite L2. unfold alt_LL. cbn [map alt_logf alt_life fst snd l_0 l_1]. rewrite !rsum_cons. unfold Rpower. rewrite !Rmult_0_l, exp_0, Rmult_1_r.
    replace (1 / exp (- (1))) with (exp 1) by (rewrite exp_Ropp; field; apply Rgt_not_eq, exp_pos). rewrite ln_exp. cbn. lra. }
  pose proof exp_le_3 as E3. assert (exp 2 = exp 1 * exp 1) as E2 by (rewrite <- exp_plus; f_equal; lra). pose proof (exp_pos 1) as E1. assert (0 < exp 2 <= 9) as E9 by (split; [apply exp_pos|rewrite E2; nra]). clear E2.
  assert (alt_sort_rows row_sort "LL" [row_of n1 r1; row_of n2 r2] = Ok [row_of n2 r2; row_of n1 r1]) as ES.
  { assert (row_sort (fun r => Rabs (w_loglik r)) [row_of n1 r1; row_of n2 r2] = [row_of n2 r2; row_of n1 r1]) as E0.
    { cbn [row_sort fold_right row_insert]. rewrite V1, V2. destruct (Rle_dec _ _) as [L|L]; [exfalso; rewrite !Rabs_right in L by lra; lra|reflexivity]. }
    change (alt_sort_rows row_sort "LL" [row_of n1 r1; row_of n2 r2]) with (let d := row_sort (fun r => Rabs (w_loglik r)) [row_of n1 r1; row_of n2 r2] in match d with [] => Err ValueError | _ => Ok d end).
    rewrite E0. reflexivity. }
  rewrite ES in HE. cbn [bind] in HE. exists O, row_sort, ex. eexists. eexists. eexists. split; [exact row_sorts|]. split; [exact HE|]. exists (row_of n2 r2), (row_of n1 r1), [row_of n1 r1]. split; [reflexivity|]. split; [now left|]. rewrite V1, V2. lra.
Qed.
Print Assumptions C109_loglik_refuted.
Example C109_case kle O : total_order kle -> (forall n est, o_diag (O n) est <> None) -> exists df2 best use, Fit_Everything_ALT kle (alt_fitter kle O) row_sort ["weibull_POWER"%string] "bic" demo_short = Ok (df2, best, use) /\ length df2 = 11%nat.
Proof.
  intros Ho HD. destruct (proj2 (checks_acceptable kle None demo_short Ho) demo_short_acceptable) as [k Hk].
  destruct (everything_steps kle O row_sort ["weibull_POWER"%string] "bic" demo_short k Hk) as (rows & HR & HE).
  { intros n Hn. apply demo_short_fitted; [exact Ho| |apply HD]. cbn in Hn. destruct (dual_stress (snd n)); [exfalso; now apply Hn|reflexivity]. }
  assert (forall {A B} (P : A -> B -> Prop) l l', Forall2 P l l' -> length l = length l') as FL by (intros A B P l l' X; induction X; cbn; congruence). apply FL in HR. change (length (models_to_fit ["weibull_POWER"%string] (is_dual None demo_short))) with 11%nat in HR.
  change (alt_sort_rows row_sort "bic" rows) with (let d := row_sort w_BIC rows in match d with [] => Err ValueError | _ => Ok d end) in HE. cbv zeta in HE.
  pose proof (Permutation_length (proj1 (row_sorts w_BIC rows))) as L. rewrite <- HR in L. destruct (row_sort w_BIC rows) as [|w l]; [discriminate L|]. cbn [bind] in HE. eexists. eexists. eexists. split; [exact HE|exact (eq_sym L)].
Qed.
Example C104_case kle d m noisy fit2P minimize diag : total_order kle -> dual_stress m = true -> (forall est, diag est <> None) ->
  (exists r, alt_fit kle d m noisy fit2P minimize diag demo_dual = Ok r) /\ exists f rc, data_of true demo_dual f rc /\ Forall (positive_item true) f /\ length f = 4%nat.
Proof.
  intros Ho Hd HD. split; [now apply demo_dual_fitted|]. exists (combine [1; 2; 3; 4] (combine [10; 10; 20; 20] [5; 15; 5; 15])), [].
  split; [exists [10; 10; 20; 20], [5; 15; 5; 15], [], [], []; repeat split|]. split; [|reflexivity]. unfold positive_item. repeat (apply Forall_cons; [cbn; repeat split; intros; lra|]). apply Forall_nil.
Qed.
