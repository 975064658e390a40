(** Proofs about the accelerated life test fitters: likelihood, results and limits. *)
From Coquelicot Require Import Coquelicot.
From Coq Require Import String.
From Coq Require Import List Arith Reals Lra Lia Bool ZArith Sorting.Sorted Permutation.
From Verif Require Import Base RealFacts Gauss Ext RList ConvertModel RepairModel RepairProofs RepairProofs2 DistModel DistSpec DistProofs CombModel CombSpec RegModel RegSpec RegProofs PoFProofs2 FitModel FitSpec FitProofs
  SelModel SelSpec SelProofs CIModel CISpec CIProofs OtherModel OtherSpec ALTModel ALTSpec ALTProofs.
Import ListNotations.
Open Scope R_scope.

Lemma items_pairs dual t s1 s2 : items dual t s1 s2 = combine t (pairs_of dual s1 s2).
Proof.
  unfold items, pairs_of, second. destruct dual; [reflexivity|]. f_equal. induction s1 as [|x s1 IH]; [reflexivity|]. cbn [map combine]. now rewrite IH.
Qed.

(** ** Likelihood *)
Lemma life_pos m p s1 s2 : scale_ok m p -> 0 < s1 -> 0 < alt_life m p s1 s2.
Proof.
  intros H H1. assert (0 < 1 / s1) by (apply Rdiv_lt_0_compat; lra).
  destruct m; cbn [scale_ok alt_life] in *; repeat apply Rmult_lt_0_compat; try assumption; try apply exp_pos; try apply Rpower_gt_0; try lra; now apply Rinv_0_lt_compat.
Qed.
Lemma life_spec m p s1 s2 : s1 <> 0 -> life_stress m (named m p) s1 s2 (alt_life m p s1 s2).
Proof.
  intros H1. destruct m; cbn [life_stress named alt_life q_a q_b q_c q_n q_m]; repeat (eexists; repeat (split; [reflexivity|])); try reflexivity.
  - field_simplify_eq; [|exact H1]. ring.
  - ring.
Qed.
Lemma life_unique m p s1 s2 L L' : life_stress m p s1 s2 L -> life_stress m p s1 s2 L' -> L = L'.
Proof.
  destruct m; cbn [life_stress]; intros H H'; repeat match goal with H : exists _, _ |- _ => destruct H | H : _ /\ _ |- _ => destruct H end;
    repeat match goal with H : ?a = Some _, H' : ?a = Some _ |- _ => rewrite H in H'; injection H' as <- end; congruence.
Qed.
Lemma life_distribution_unique d m p shape s D : scale_ok m p -> 0 < fst s -> life_distribution d m p shape s D -> D = alt_distribution d (alt_life m p (fst s) (snd s)) shape.
Proof.
  intros Hs H1 (L & HL & HD). rewrite (life_unique _ _ _ _ _ _ HL (life_spec m p (fst s) (snd s) ltac:(lra))) in *. clear L HL.
  pose proof (life_pos m p (fst s) (snd s) Hs H1) as Hp. set (L := alt_life m p (fst s) (snd s)) in *. clearbody L.
  destruct d, D; cbn [with_life base_name beta_of sigma_of alt_distribution] in *; try (exfalso; exact HD); try (exfalso; destruct HD; discriminate).
  - destruct HD as (_ & -> & E & ->). now injection E as <-.
  - destruct HD as (_ & E & E2 & ->). injection E2 as <-. specialize (E Hp). f_equal. rewrite <- E. symmetry. apply ln_exp.
  - destruct HD as (_ & -> & E). now injection E as <-.
  - destruct HD as (_ & E & ->). specialize (E ltac:(lra)). f_equal. rewrite <- E. unfold Rdiv. rewrite Rinv_inv. ring.
Qed.
Lemma life_distribution_exists d m p shape s : 0 < fst s -> scale_ok m p -> life_distribution d m p shape s (alt_distribution d (alt_life m p (fst s) (snd s)) shape).
Proof.
  intros H1 Hs. exists (alt_life m p (fst s) (snd s)). split; [apply life_spec; lra|]. pose proof (life_pos m p (fst s) (snd s) Hs H1).
  destruct d; cbn [with_life base_name beta_of sigma_of alt_distribution]; repeat (split; [reflexivity|]); try reflexivity.
  - split; [intros; now apply exp_ln|]. split; reflexivity.
  - split; [|reflexivity]. intros. unfold Rdiv. rewrite Rmult_1_l. apply Rinv_inv.
Qed.
Definition plain (d : alt_dist) (L shape : R) : fitter :=
  match d with A_Weibull => Weibull_2P L shape | A_Lognormal => Lognormal_2P (ln L) shape | A_Normal => Normal_2P L shape | A_Exponential => Exponential_1P (1 / L) end.
Lemma plain_logf d L shape t : alt_logf d L shape t = logf (plain d L shape) t.
Proof. destruct d; cbn [alt_logf plain logf]; try reflexivity. Qed.
Lemma plain_logR d L shape t : alt_logR d L shape t = logR (plain d L shape) t.
Proof. destruct d; cbn [alt_logR plain logR]; reflexivity. Qed.
Lemma plain_dist d L shape : distribution (plain d L shape) = Single (alt_distribution d L shape).
Proof. destruct d; reflexivity. Qed.
Lemma plain_terms d L shape t : 0 < L -> shape_ok d shape -> 0 < t ->
  density_at (Single (alt_distribution d L shape)) t (exp (alt_logf d L shape t)) /\ survival_at (Single (alt_distribution d L shape)) t (exp (alt_logR d L shape t)).
Proof.
  intros HL Hs Ht. rewrite plain_logf, plain_logR, <- plain_dist. apply likelihood_terms.
  - destruct d; cbn [plain params_ok shape_ok] in *; auto. apply Rdiv_lt_0_compat; lra.
  - destruct d; cbn [plain support]; auto.
Qed.
Lemma ln_rprod (g : R * (R * R) -> R) l P : Forall2 (fun i v => v = exp (g i)) l P -> 0 < rprod P /\ ln (rprod P) = rsum (map g l).
Proof.
  induction 1 as [|i v l P E H [IH1 IH2]]; [split; [cbn; lra|cbn; apply ln_1]|]. cbn [map]. rewrite rsum_cons. change (rprod (v :: P)) with (v * rprod P). subst v. pose proof (exp_pos (g i)).
  split; [now apply Rmult_lt_0_compat|]. rewrite ln_mult, ln_exp, IH2 by assumption. reflexivity.
Qed.
Lemma density_unique o t v w : density_at o t v -> density_at o t w -> v = w.
Proof. unfold density_at. intros H. rewrite H. intros E. now injection E. Qed.
Lemma survival_unique o t v w : survival_at o t v -> survival_at o t w -> v = w.
Proof. unfold survival_at. intros H. rewrite H. intros E. now injection E. Qed.
Lemma density_value d m p shape i v : scale_ok m p -> shape_ok d shape -> 0 < fst i -> 0 < fst (snd i) -> density_of d m p shape i v ->
  v = exp (alt_logf d (alt_life m p (fst (snd i)) (snd (snd i))) shape (fst i)).
Proof.
  intros Hs Hp H0 H1 (D & HD & Hv). apply life_distribution_unique in HD; try assumption. subst D. eapply density_unique; [exact Hv|]. apply plain_terms; [now apply life_pos|assumption..].
Qed.
Lemma survival_value d m p shape i v : scale_ok m p -> shape_ok d shape -> 0 < fst i -> 0 < fst (snd i) -> survival_of d m p shape i v ->
  v = exp (alt_logR d (alt_life m p (fst (snd i)) (snd (snd i))) shape (fst i)).
Proof.
  intros Hs Hp H0 H1 (D & HD & Hv). apply life_distribution_unique in HD; try assumption. subst D. eapply survival_unique; [exact Hv|]. apply plain_terms; [now apply life_pos|assumption..].
Qed.
Lemma alt_likelihood d m p shape f rc P S : scale_ok m p -> shape_ok d shape -> Forall (positive_item (dual_stress m)) f -> Forall (positive_item (dual_stress m)) rc ->
  Forall2 (density_of d m p shape) f P -> Forall2 (survival_of d m p shape) rc S -> - alt_LL d m p shape f rc = ln (rprod P * rprod S).
Proof.
  intros Hs Hp Hf Hc HP HS. unfold alt_LL. rewrite Ropp_involutive.
  assert (Forall2 (fun i v => v = exp (alt_logf d (alt_life m p (fst (snd i)) (snd (snd i))) shape (fst i))) f P) as E1.
  { revert Hf. induction HP as [|i v f P H HP IH]; intros Hf; [constructor|]. inversion Hf as [|? ? Hi Hf']; subst. constructor; [|now apply IH]. apply (density_value d m p shape i v); try assumption; apply Hi. }
  assert (Forall2 (fun i v => v = exp (alt_logR d (alt_life m p (fst (snd i)) (snd (snd i))) shape (fst i))) rc S) as E2.
  { revert Hc. induction HS as [|i v rc S H HS IH]; intros Hc; [constructor|]. inversion Hc as [|? ? Hi Hc']; subst. constructor; [|now apply IH]. apply (survival_value d m p shape i v); try assumption; apply Hi. }
  apply ln_rprod in E1, E2. destruct E1 as [A1 B1], E2 as [A2 B2]. rewrite ln_mult by assumption. now rewrite B1, B2.
Qed.

(** ** The result of a fitter *)
Lemma alt_fit_inv kle d m noisy fit2P minimize diag a r : alt_fit kle d m noisy fit2P minimize diag a = Ok r ->
  exists k guess fits lims, alt_check kle (Some m) a = Ok k /\ ALT_least_squares m noisy (k_failures k) (k_stress_1 k) (k_stress_2 k) = Ok guess /\
    group_fits d fit2P (k_failure_groups k) (match k_censored_groups k with None => [] | Some g => g end) = Ok fits /\
    (let dual := dual_stress m in let f := items dual (k_failures k) (k_stress_1 k) (k_stress_2 k) in let rc := items dual (k_censored k) (k_censored_1 k) (k_censored_2 k) in
     let LL x := alt_LL d m (fst x) (snd x) f rc in let est := (a_params r, a_shape r) in let ests := estimates d m (a_params r) (a_shape r) in
     ALT_MLE minimize LL (k_optimizer k) (guess, common_shape fits) = Ok (a_success r, a_optimizer r, est) /\
     alt_limits d m (k_CI k) ests (diag est) (a_optimizer r) = Ok lims /\ a_limits r = lims /\
     a_gof r = goodness (Z.of_nat (length (k_failures k) + length (k_censored k))) (Z.of_nat (length ests)) (2 * LL est) /\
     let life s := alt_life m (a_params r) (fst s) (snd s) in
     a_use r = match k_use k with None => None | Some u => Some (alt_distribution d (life u) (a_shape r)) end /\
     a_change r = map (fun p => {| h_stress := fst p; h_original := snd p; h_life := life (fst p);
                                   h_AF := match k_use k with None => None | Some u => Some (life u / life (fst p)) end |}) (combine (k_stresses k) fits)).
Proof.
  unfold alt_fit. intros H. apply bind_ok in H. destruct H as (k & H1 & H). apply bind_ok in H. destruct H as (guess & H2 & H). apply bind_ok in H. destruct H as (fits & H3 & H).
  apply bind_ok in H. destruct H as ([[ok o] [p shape]] & H4 & H). apply bind_ok in H. destruct H as (lims & H5 & H). injection H as <-.
  exists k, guess, fits, lims. cbn [a_params a_shape a_success a_optimizer a_limits a_gof a_use a_change fst snd] in *. repeat (split; [assumption || reflexivity|]). reflexivity.
Qed.
Lemma check_data_used kle m a k : alt_check kle (Some m) a = Ok k ->
  used_stresses (dual_stress m) a (k_stress_1 k) (k_stress_2 k) (k_censored k) (k_censored_1 k) (k_censored_2 k) /\
  checks (dual_stress m) a (k_stress_1 k) (k_stress_2 k) (k_censored k) (k_censored_1 k) (k_censored_2 k) /\ k_failures k = g_failures a /\ k_CI k = g_CI a /\
  check_optimizer (g_optimizer a) = Ok (k_optimizer k) /\ check_use (dual_stress m) (g_use a) = Ok (k_use k).
Proof.
  intros H. destruct (alt_check_form kle (Some m) a) as [(e & E & _)|(s1 & s2 & rc & c1 & c2 & keys & fg & cg & o & u & HU & HC & HO & Hu & HG & HM & E)]; [congruence|].
  rewrite H in E. injection E as ->. change (is_dual (Some m) a) with (dual_stress m) in *.
  cbn [k_failures k_stress_1 k_stress_2 k_censored k_censored_1 k_censored_2 k_CI k_optimizer k_use]. repeat (split; [assumption || reflexivity|]). assumption.
Qed.
Lemma used_unique dual a s1 s2 rc c1 c2 s1' s2' rc' c1' c2' : used_stresses dual a s1 s2 rc c1 c2 -> used_stresses dual a s1' s2' rc' c1' c2' ->
  s1 = s1' /\ s2 = s2' /\ rc = rc' /\ c1 = c1' /\ c2 = c2'.
Proof.
  intros (A1 & A2 & A3) (B1 & B2 & B3). rewrite A1 in B1. injection B1 as <-. split; [reflexivity|].
  split; [destruct dual; congruence|]. destruct (g_censored a) as [l|].
  - destruct A3 as (-> & A4 & A5), B3 as (-> & B4 & B5). split; [reflexivity|]. split; [congruence|]. destruct dual; congruence.
  - destruct A3 as (-> & -> & ->), B3 as (-> & -> & ->). auto.
Qed.
Lemma estimates_ok d m p shape : scale_ok m p -> shape_ok d shape -> Forall2 estimate_ok (estimate_kinds d m) (estimates d m p shape).
Proof.
  intros Hs Hp. destruct m, d; cbn [estimate_kinds estimates dual_stress app scale_ok shape_ok] in *; repeat (apply Forall2_cons; [cbn; auto|]); apply Forall2_nil.
Qed.
Lemma alt_limits_row d m CI ests diag opt rows i r :
  0 < CI < 1 -> Forall2 estimate_ok (estimate_kinds d m) ests -> alt_limits d m CI ests diag opt = Ok rows -> nth_error rows i = Some r ->
  exists k e s z, nth_error (estimate_kinds d m) i = Some k /\ nth_error ests i = Some e /\ 0 <= s /\ 0 <= z /\ estimate_ok k e /\
    p_est r = e /\ p_lower r = p_lower (param_limits k z e s) /\ p_upper r = p_upper (param_limits k z e s) /\
    (diag <> None -> z = Z_of CI) /\ (diag = None -> z = 0) /\
    (forall c, diag = Some c -> exists v, nth_error c i = Some v /\ s = sqrt (Rabs v)).
Proof.
  intros HC HF. unfold alt_limits. destruct diag as [c|].
  - intros H. injection H as <-. intros Hn. apply limits_of_nth in Hn. destruct Hn as (k & e & s & Hk & He & Hs & ->).
    rewrite nth_error_map in Hs. destruct (nth_error c i) as [v|] eqn:Ev; [|discriminate]. injection Hs as <-.
    destruct (Forall2_nth1 _ _ _ _ _ HF Hk) as (e' & He' & Hok). rewrite He in He'. injection He' as <-.
    exists k, e, (sqrt (Rabs v)), (Z_of CI). split; [exact Hk|]. split; [exact He|]. split; [apply sqrt_pos|]. split; [left; now apply Z_nonneg|].
    split; [exact Hok|]. split; [apply limits_est|]. split; [reflexivity|]. split; [reflexivity|]. split; [reflexivity|]. split; [discriminate|].
    intros c0 Hc. injection Hc as <-. eauto.
  - destruct opt; [|discriminate]. intros H. injection H as <-. intros Hn. rewrite nth_error_map in Hn. destruct (nth_error ests i) as [e|] eqn:Ee; [|discriminate].
    injection Hn as <-. destruct (Forall2_nth _ _ _ _ _ HF Ee) as (k & Hk & Hok). destruct (limits_at_0 k e 0 Hok) as (F0 & F1 & F2).
    exists k, e, 0, 0. split; [exact Hk|]. split; [reflexivity|]. split; [lra|]. split; [lra|]. split; [exact Hok|]. cbn [p_est p_lower p_upper]. rewrite F1, F2.
    repeat (split; [reflexivity|]). split; [congruence|]. split; [reflexivity|]. discriminate.
Qed.

(** A different confidence level changes nothing but the limits. *)
Lemma checked_CI kle m a CI' k k' : alt_check kle (Some m) a = Ok k -> alt_check kle (Some m) (with_CI a CI') = Ok k' ->
  k' = {| k_failures := k_failures k; k_stress_1 := k_stress_1 k; k_stress_2 := k_stress_2 k; k_censored := k_censored k; k_censored_1 := k_censored_1 k; k_censored_2 := k_censored_2 k;
          k_CI := CI'; k_optimizer := k_optimizer k; k_use := k_use k; k_failure_groups := k_failure_groups k; k_censored_groups := k_censored_groups k; k_stresses := k_stresses k |}.
Proof.
  intros H H'.
  destruct (alt_check_form kle (Some m) a) as [(e & E & _)|(s1 & s2 & rc & c1 & c2 & keys & fg & cg & o & u & HU & HC & HO & Hu & HG & HM & E)]; [congruence|].
  destruct (alt_check_form kle (Some m) (with_CI a CI')) as [(e & E' & _)|(s1' & s2' & rc' & c1' & c2' & keys' & fg' & cg' & o' & u' & HU' & HC' & HO' & Hu' & HG' & HM' & E')]; [congruence|].
  rewrite H in E. injection E as ->. rewrite H' in E'. injection E' as ->. change (is_dual (Some m) (with_CI a CI')) with (is_dual (Some m) a) in *.
  destruct (used_unique (is_dual (Some m) a) a s1 s2 rc c1 c2 s1' s2' rc' c1' c2' HU HU') as (<- & <- & <- & <- & <-). cbn [with_CI g_optimizer g_use g_failures g_CI] in *.
  rewrite HO in HO'. injection HO' as <-. rewrite Hu in Hu'. injection Hu' as <-. rewrite HG in HG'. injection HG' as <- <- <-. reflexivity.
Qed.
Lemma estimates_length d m p shape : length (estimates d m p shape) = number_of_parameters d m.
Proof. destruct d, m; reflexivity. Qed.

(** ** When the steps of a fitter succeed *)
Lemma add_empty_in {K} (kdec : forall a b : K, {a = b} + {a <> b}) fk ck : forall i g x, In x (add_empty kdec i fk ck g) -> x = [] \/ In x g.
Proof.
  induction fk as [|k fk IH]; intros i g x H; [now right|]. cbn [add_empty] in H. destruct (in_dec kdec k ck); [now apply (IH _ _ _ H)|].
  apply IH in H. destruct H as [H|H]; [now left|]. unfold list_insert in H. apply in_app_or in H. destruct H as [H|[H|H]].
  - right. rewrite <- (firstn_skipn i g). apply in_or_app. now left.
  - left. now symmetry.
  - right. rewrite <- (firstn_skipn i g). apply in_or_app. now right.
Qed.
Lemma at_stress_In {K} (kdec : forall a b : K, {a = b} + {a <> b}) k ks : forall vs t, In t (at_stress kdec k ks vs) -> In t vs.
Proof.
  induction ks as [|x ks IH]; intros vs t H; [destruct H|]. destruct vs as [|v vs]; [destruct H|]. cbn [at_stress] in H. destruct (kdec x k); [destruct H as [<-|H]; [now left|]|]; right; now apply (IH vs t).
Qed.
Lemma censored_groups_in kle m a k : total_order kle -> alt_check kle (Some m) a = Ok k -> forall g x t, k_censored_groups k = Some g -> In x g -> In t x -> In t (k_censored k).
Proof.
  intros Ho H. destruct (alt_check_form kle (Some m) a) as [(e & E & _)|(s1 & s2 & rc & c1 & c2 & keys & fg & cg & o & u & HU & HC & HO & Hu & HG & HM & E)]; [congruence|].
  rewrite H in E. injection E as ->. cbn [k_censored_groups k_censored]. intros g x t Hg Hx Ht. destruct cg as [cg|]; [|discriminate]. cbn [option_map] in Hg. injection Hg as <-. apply in_rev in Hx.
  assert (forall K (ke : K -> K -> bool) (kdec : forall a b : K, {a = b} + {a <> b}) fk ck (kk : list K) gg, (exists st, stress_groups ke kdec st fk (g_failures a) ck rc = Ok (kk, gg, Some cg)) -> In t rc) as K.
  { intros K ke kdec fk ck kk gg (st & Hs). unfold stress_groups in Hs. destruct rc as [|t0 rc]; [discriminate|]. destruct (st && _); [discriminate|]. injection Hs as _ _ Hs. rewrite <- Hs in Hx.
    apply add_empty_in in Hx. destruct Hx as [->|Hx]; [destruct Ht|]. unfold groupby in Hx. apply in_map_iff in Hx. destruct Hx as (k0 & <- & _). rewrite group_values_at in Ht. now apply at_stress_In in Ht. }
  unfold all_groups in HG. destruct (is_dual (Some m) a).
  - eapply K. exists true. exact HG.
  - destruct (stress_groups Rleb Req_EM_T false s1 (g_failures a) c1 rc) as [[[kk gg] cc]|] eqn:EG; [|discriminate]. cbn [bind fst snd] in HG. injection HG as _ _ ->. eapply K. exists false. exact EG.
Qed.
Lemma group_fits_ok d fit2P : forall fg cg, (forall f, In f fg -> Forall (Rlt 0) f /\ ((length f <= 1)%nat \/ two_values f)) -> (forall c, In c cg -> Forall (Rlt 0) c) ->
  exists fits, group_fits d fit2P fg cg = Ok fits.
Proof.
  induction fg as [|f fg IH]; intros cg Hf Hc; [eexists; reflexivity|]. cbn [group_fits].
  destruct (IH (tl cg)) as [rest ER]; [intros x Hx; apply Hf; now right|intros c Hx; apply Hc; destruct cg; [destruct Hx|now right]|].
  destruct (Hf f (or_introl eq_refl)) as [Hp [H1|H2]].
  - destruct (Nat.ltb_spec 1 (length f)); [lia|]. cbn [bind]. rewrite ER. cbn [bind]. eauto.
  - destruct (1 <? length f)%nat; cbn [bind]; [|rewrite ER; cbn [bind]; eauto].
    apply two_values_count in H2. assert (Forall (Rlt 0) (hd [] cg)) as Hh by (destruct cg as [|c cg]; [constructor|apply Hc; now left]).
    rewrite check_positive; [|exact Hp|exact Hh|destruct d; discriminate|lia].
    assert (min_failures (group_dname d) false = 2%nat) as -> by (destruct d; reflexivity). destruct (Nat.ltb_spec (unique_count f) 2); [lia|]. cbn [bind fst snd]. rewrite ER. cbn [bind]. eauto.
Qed.
Lemma group_fits_length d fit2P : forall fg cg fits, group_fits d fit2P fg cg = Ok fits -> length fits = length fg.
Proof.
  induction fg as [|f fg IH]; intros cg fits H; cbn [group_fits] in H; [injection H as <-; reflexivity|]. apply bind_ok in H. destruct H as (one & _ & H). apply bind_ok in H.
  destruct H as (rest & H1 & H). injection H as <-. cbn [length]. f_equal. now apply (IH _ _ H1).
Qed.
Lemma map_two (g : R -> R) l : (forall x y, In x l -> In y l -> g x = g y -> x = y) -> two_values l -> two_different (map g l).
Proof. intros Hg (x & y & Hx & Hy & N). exists (g x), (g y). split; [now apply in_map|]. split; [now apply in_map|]. intros E. apply N, Hg; assumption. Qed.
Lemma line_ok x y : length x = length y -> two_different x -> exists s, line x y = Ok s.
Proof. intros HL HT. destruct (rry_success x y HL HT) as (m & c & H). exists (m, c). unfold line. now rewrite H. Qed.
Lemma inv_inj (x y : R) : 0 < x -> 0 < y -> 1 / x = 1 / y -> x = y.
Proof. intros Hx Hy E. unfold Rdiv in E. rewrite !Rmult_1_l in E. rewrite <- (Rinv_inv x), E. apply Rinv_inv. Qed.
Lemma inverses_two l : Forall (Rlt 0) l -> two_values l -> two_different (inverses l).
Proof. intros HP. apply map_two. rewrite Forall_forall in HP. intros x y Hx Hy. apply inv_inj; now apply HP. Qed.
Lemma logs_two l : Forall (Rlt 0) l -> two_values l -> two_different (logs l).
Proof. intros HP. apply map_two. rewrite Forall_forall in HP. intros x y Hx Hy. apply ln_inv; now apply HP. Qed.
Lemma inverses_length l : length (inverses l) = length l.
Proof. apply map_length. Qed.
Lemma logs_length l : length (logs l) = length l.
Proof. apply map_length. Qed.
Lemma least_squares_ok m noisy L S1 S2 : length S1 = length L -> Forall (Rlt 0) S1 -> two_values S1 -> exists g, ALT_least_squares m noisy L S1 S2 = Ok g.
Proof.
  intros HL HP HT. destruct m; cbn [ALT_least_squares].
  - destruct (line_ok (inverses S1) (logs L)) as [s ->]; [now rewrite inverses_length, logs_length|now apply inverses_two|]. cbn [bind]. eauto.
  - destruct (line_ok (inverses S1) (zip Rplus (logs L) (logs S1))) as [s ->]; [rewrite inverses_length, zip_length, logs_length by (now rewrite !logs_length); exact HL|now apply inverses_two|]. cbn [bind]. eauto.
  - destruct (line_ok (logs S1) (logs L)) as [s ->]; [now rewrite !logs_length|now apply logs_two|]. cbn [bind]. eauto.
  - destruct (plane _ _ _ _) as [[? ?] ?]. eauto.
  - destruct (plane _ _ _ _) as [[? ?] ?]. eauto.
  - destruct (plane _ _ _ _) as [[? ?] ?]. eauto.
Qed.
Lemma check_optimizer_value o r : check_optimizer o = Ok r -> In r [None; Some "TNC"; Some "powell"; Some "L-BFGS-B"; Some "nelder-mead"; Some "best"]%string.
Proof.
  unfold check_optimizer. destruct o as [s|]; [|intros [= <-]; cbn; tauto].
  repeat match goal with |- context [if ?b then _ else _] => destruct b; [intros [= <-]; cbn; tauto|] end. discriminate.
Qed.
Lemma mle_ok {P} (minimize : opt -> P -> bool * P) LL_func o g : In o [None; Some "TNC"; Some "powell"; Some "L-BFGS-B"; Some "nelder-mead"; Some "best"]%string ->
  exists r, MLE_optimization minimize LL_func o g = Ok r.
Proof.
  intros H. unfold MLE_optimization. assert (exists os, optimizers_to_try o = Ok os) as [os ->].
  { cbn in H. repeat destruct H as [<-|H]; try contradiction; eexists; reflexivity. }
  cbn [bind]. destruct (filter _ _); eauto.
Qed.

(** All steps up to the maximum likelihood estimate. *)
Lemma fit_steps kle d m noisy fit2P minimize diag a : total_order kle -> acceptable (dual_stress m) a -> (forall s1, g_stress_1 a = Some s1 -> Forall (Rlt 0) s1) ->
  (forall f rc, data_of (dual_stress m) a f rc -> forall s, (length (at_stress Rpair_dec s (map snd f) (map fst f)) <= 1)%nat \/ two_values (at_stress Rpair_dec s (map snd f) (map fst f))) ->
  exists k guess fits ok o est, alt_check kle (Some m) a = Ok k /\
    ALT_MLE minimize (fun x => alt_LL d m (fst x) (snd x) (items (dual_stress m) (k_failures k) (k_stress_1 k) (k_stress_2 k)) (items (dual_stress m) (k_censored k) (k_censored_1 k) (k_censored_2 k)))
      (k_optimizer k) (guess, common_shape fits) = Ok (ok, o, est) /\
    (forall lims, alt_limits d m (k_CI k) (estimates d m (fst est) (snd est)) (diag est) o = Ok lims -> exists r, alt_fit kle d m noisy fit2P minimize diag a = Ok r) /\
    (forall e, alt_limits d m (k_CI k) (estimates d m (fst est) (snd est)) (diag est) o = Err e -> alt_fit kle d m noisy fit2P minimize diag a = Err e).
Proof.
  intros Ho Ha Hpos Hties. destruct (proj2 (checks_acceptable kle (Some m) a Ho) Ha) as [k Hk].
  pose proof (check_data_used _ _ _ _ Hk) as (HU & (L1 & L2 & L3 & Hp & _ & _ & T1 & _) & EF & _ & HO & _).
  destruct (least_squares_ok m noisy (k_failures k) (k_stress_1 k) (k_stress_2 k)) as [guess EG]; [now rewrite EF|apply Hpos, HU|exact T1|].
  assert (exists fits, group_fits d fit2P (k_failure_groups k) (match k_censored_groups k with None => [] | Some g => g end) = Ok fits) as [fits EFits].
  { apply group_fits_ok.
    - intros f Hf. destruct (alt_check_form kle (Some m) a) as [(e & E & _)|(s1 & s2 & rc & c1 & c2 & keys & fg & cg & o & u & HU' & HC & HO' & Hu & HG & HM & E)]; [congruence|].
      rewrite Hk in E. injection E as ->. cbn [k_failure_groups k_stress_1 k_stress_2 k_failures k_censored k_censored_1 k_censored_2] in *. apply in_rev in Hf.
      destruct (all_groups_spec _ _ _ _ _ _ _ _ _ _ _ Ho HG) as (_ & _ & -> & _). apply in_map_iff in Hf. destruct Hf as (s & <- & _). split.
      + apply Forall_forall. intros t Ht. apply at_stress_In in Ht. apply Hp. now left.
      + assert (length (g_failures a) = length (pairs_of (dual_stress m) s1 s2)) as Lf by (unfold pairs_of; destruct (dual_stress m); [rewrite combine_length, (proj1 (L3 eq_refl)), L1; symmetry; apply Nat.min_id|now rewrite map_length]).
        specialize (Hties (combine (g_failures a) (pairs_of (dual_stress m) s1 s2)) (combine rc (pairs_of (dual_stress m) c1 c2))).
        change (is_dual (Some m) a) with (dual_stress m). set (l := pairs_of (dual_stress m) s1 s2) in *.
        assert (map fst (combine (g_failures a) l) = g_failures a /\ map snd (combine (g_failures a) l) = l) as [E1 E2].
        { clear -Lf. clearbody l. revert l Lf. induction (g_failures a) as [|x f IH]; intros [|y l] Lf; try discriminate; [auto|]. cbn [combine map fst snd]. injection Lf as Lf. destruct (IH l Lf) as [-> ->]. auto. }
        rewrite E1, E2 in Hties. apply Hties. exists s1, s2, rc, c1, c2. auto.
    - intros c Hc. destruct (k_censored_groups k) as [g|] eqn:Eg; [|destruct Hc]. apply Forall_forall. intros t Ht. apply Hp. right. exact (censored_groups_in kle m a k Ho Hk g c t Eg Hc Ht). }
  destruct (mle_ok minimize (fun x => alt_LL d m (fst x) (snd x) (items (dual_stress m) (k_failures k) (k_stress_1 k) (k_stress_2 k)) (items (dual_stress m) (k_censored k) (k_censored_1 k) (k_censored_2 k)) / 2)
     (k_optimizer k) (guess, common_shape fits) (check_optimizer_value _ _ HO)) as [[[ok o] est] EM].
  exists k, guess, fits, ok, o, est. split; [exact Hk|]. split; [exact EM|]. unfold alt_fit. rewrite Hk. cbn [bind]. rewrite EG. cbn [bind]. rewrite EFits. cbn [bind]. unfold ALT_MLE. rewrite EM. cbn [bind].
  split; [intros lims ->|intros e ->]; cbn [bind]; [eauto|reflexivity].
Qed.
