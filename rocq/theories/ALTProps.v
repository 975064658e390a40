(** Properties C73, C74 and C104-C108: the accelerated life test fitters. *)
From Coquelicot Require Import Coquelicot.
From Coq Require Import String.
From Coq Require Import List Arith Reals Lra Lia Bool ZArith Sorting.Sorted Permutation.
From Verif Require Import Base RealFacts Gauss Ext RList ConvertModel RepairModel RepairProofs RepairProofs2 DistModel DistSpec DistProofs CombModel CombSpec RegModel RegSpec RegProofs PoFProofs2
  FitModel FitSpec FitProofs SelModel SelSpec SelProofs CIModel CISpec CIProofs OtherModel OtherSpec ALTModel ALTSpec ALTProofs ALTProofs2.
Import ListNotations.
Open Scope R_scope.

Local Lemma ok_eq {A} (x y : A) : Ok x = Ok y -> x = y.
Proof. congruence. Qed.

(** ** C73 *)
Lemma grouped_form kle model a k : total_order kle -> alt_check kle model a = Ok k -> let dual := is_dual model a in
  used_stresses dual a (k_stress_1 k) (k_stress_2 k) (k_censored k) (k_censored_1 k) (k_censored_2 k) /\ k_failures k = g_failures a /\
  NoDup (k_stresses k) /\ (forall s, In s (k_stresses k) <-> In s (failure_stresses dual k)) /\
  k_failure_groups k = map (fun s => at_stress Rpair_dec s (failure_stresses dual k) (k_failures k)) (k_stresses k) /\
  Permutation (concat (k_failure_groups k)) (k_failures k) /\
  (dual = false -> StronglySorted Rgt (map fst (k_stresses k))) /\
  (dual = true \/ incl (k_censored_1 k) (k_stress_1 k) -> grouped dual k /\ nothing_lost k).
Proof.
  intros Ho H. cbv zeta. destruct (alt_check_form kle model a) as [(e & E & _)|(s1 & s2 & rc & c1 & c2 & keys & fg & cg & o & u & HU & HC & HO & Hu & HG & HM & E)]; [congruence|].
  rewrite H in E. injection E as ->. destruct HC as (L1 & L2 & L3 & _).
  set (dual := is_dual model a) in *. destruct (all_groups_spec _ _ _ _ _ _ _ _ _ _ _ Ho HG) as (HN & HI & -> & HS & HCg & Hstr).
  unfold grouped, nothing_lost, failure_stresses, censored_stresses. cbn [k_failures k_stress_1 k_stress_2 k_censored k_censored_1 k_censored_2 k_failure_groups k_censored_groups k_stresses].
  assert (NoDup (rev keys)) as HN' by now apply NoDup_rev.
  assert (forall s, In s (rev keys) <-> In s (pairs_of dual s1 s2)) as HI' by (intros s; rewrite <- in_rev; apply HI).
  assert (length (pairs_of dual s1 s2) = length (g_failures a)) as Lf by (unfold pairs_of; destruct dual; [rewrite combine_length, (proj1 (L3 eq_refl)), L1; apply Nat.min_id|now rewrite map_length]).
  assert (length (pairs_of dual c1 c2) = length rc) as Lc by (unfold pairs_of; destruct dual; [rewrite combine_length, (proj2 (L3 eq_refl)), L2; apply Nat.min_id|now rewrite map_length]).
  assert (Permutation (concat (map (fun s => at_stress Rpair_dec s (pairs_of dual s1 s2) (g_failures a)) (rev keys))) (g_failures a)) as HP
    by (apply groups_partition; [exact HN'|intros s Hs; now apply HI'|exact Lf]).
  split; [exact HU|]. split; [reflexivity|]. split; [exact HN'|]. split; [exact HI'|]. split; [now rewrite map_rev|]. split; [now rewrite <- map_rev|]. split.
  { intros Hd. specialize (HS Hd). rewrite map_rev. clear -HS. induction (map fst keys) as [|x l IH]; [constructor|]. cbn [rev]. inversion HS as [|? ? S1 F1]; subst. specialize (IH S1).
    assert (Forall (fun y => y > x) (rev l)) as F2 by (rewrite Forall_forall in *; intros y Hy; apply in_rev in Hy; apply F1 in Hy; lra).
    clear -IH F2. induction IH as [|y r S IH F]; cbn [app]; [constructor; constructor|]. inversion F2 as [|? ? G1 G2]; subst. constructor; [now apply IH|].
    apply Forall_app. split; [exact F|]. constructor; [exact G1|constructor]. }
  intros Hcase. specialize (HCg Hcase). split.
  - split; [exact HN'|]. split; [exact HI'|]. split; [now rewrite map_rev|]. rewrite HCg. destruct rc; [reflexivity|]. cbn [option_map]. now rewrite map_rev.
  - split; [now rewrite <- map_rev|]. rewrite HCg. destruct rc as [|t rc]; [reflexivity|]. cbn [option_map]. rewrite <- map_rev. apply groups_partition; [exact HN'| |exact Lc].
    intros s Hs. apply HI'. unfold pairs_of in *. destruct dual.
    + apply Hstr in Hs; [exact Hs|reflexivity|discriminate].
    + destruct Hcase as [|Hin]; [discriminate|]. apply in_map_iff in Hs. destruct Hs as (x & <- & Hx). apply (in_map (fun x : R => (x, 0))). now apply Hin.
Qed.
(** Two stresses: always. *)
Theorem C73_dual kle model a k : total_order kle -> is_dual model a = true -> alt_check kle model a = Ok k ->
  used_stresses true a (k_stress_1 k) (k_stress_2 k) (k_censored k) (k_censored_1 k) (k_censored_2 k) /\ k_failures k = g_failures a /\ grouped true k /\ nothing_lost k.
Proof.
  intros Ho Hd H. destruct (grouped_form _ _ _ _ Ho H) as (H1 & H2 & _ & _ & _ & _ & _ & H3). rewrite Hd in *. split; [exact H1|]. split; [exact H2|]. apply H3. now left.
Qed.
Print Assumptions C73_dual.
(** One stress: if there are failures at every stress at which items were censored. The stresses are in
    descending order. Missing: censored items at a stress without failures; see C73_single_refuted. *)
Theorem C73_single_partial kle model a k : total_order kle -> is_dual model a = false -> alt_check kle model a = Ok k ->
  incl (k_censored_1 k) (k_stress_1 k) ->
  used_stresses false a (k_stress_1 k) (k_stress_2 k) (k_censored k) (k_censored_1 k) (k_censored_2 k) /\ k_failures k = g_failures a /\
  grouped false k /\ nothing_lost k /\ StronglySorted Rgt (map fst (k_stresses k)).
Proof.
  intros Ho Hd H Hi. destruct (grouped_form _ _ _ _ Ho H) as (H1 & H2 & _ & _ & _ & _ & H4 & H3). rewrite Hd in *.
  split; [exact H1|]. split; [exact H2|]. destruct (H3 (or_intror Hi)) as [G1 G2]. split; [exact G1|]. split; [exact G2|]. now apply H4.
Qed.
Print Assumptions C73_single_partial.
(** The failure groups are right in every case. *)
Theorem C73_failures kle model a k : total_order kle -> alt_check kle model a = Ok k -> let dual := is_dual model a in
  NoDup (k_stresses k) /\ (forall s, In s (k_stresses k) <-> In s (failure_stresses dual k)) /\
  k_failure_groups k = map (fun s => at_stress Rpair_dec s (failure_stresses dual k) (k_failures k)) (k_stresses k) /\
  Permutation (concat (k_failure_groups k)) (k_failures k).
Proof. intros Ho H. destruct (grouped_form _ _ _ _ Ho H) as (_ & _ & H1 & H2 & H3 & H4 & _). auto. Qed.
Print Assumptions C73_failures.

Definition demo_single (rc c1 : list R) : alt_args :=
  {| g_failures := [1; 2; 3]; g_stress_1 := Some [10; 10; 20]; g_stress_2 := None; g_censored := Some rc; g_censored_1 := Some c1; g_censored_2 := None;
     g_CI := 19 / 20; g_optimizer := None; g_use := None |}.
Lemma demo_acceptable rc c1 : length c1 = length rc -> Forall (Rlt 0) rc -> acceptable false (demo_single rc c1).
Proof.
  intros HL HP. exists [10; 10; 20], [], rc, c1, []. split; [unfold used_stresses; cbn; auto|]. cbn [demo_single g_failures g_CI g_optimizer g_use known_optimizer use_fits].
  split; [reflexivity|]. split; [exact HL|]. split; [discriminate|]. split.
  { intros t [H|H]; [cbn in H; destruct H as [<-|[<-|[<-|[]]]]; lra|rewrite Forall_forall in HP; now apply HP]. }
  split; [lra|]. split; [exact I|]. split; [exact I|]. split; [exists 10, 20; cbn; split; [tauto|]; split; [tauto|lra]|]. split; [discriminate|]. split; [|discriminate].
  exists [((10, 0), 1); ((10, 0), 2); ((20, 0), 3)]. split; [|split; [intros x Hx; exact Hx|reflexivity]].
  constructor; [cbn; intros [H|[H|[]]]; injection H; lra|]. constructor; [cbn; intros [H|[]]; injection H; lra|]. constructor; [intros []|constructor].
Qed.
Ltac decide_R := repeat match goal with
  | |- context [Req_EM_T ?a ?b] => first [destruct (Req_EM_T a b) as [|]; [|exfalso; lra] | destruct (Req_EM_T a b) as [|]; [exfalso; lra|]]
  | |- context [Rle_dec ?a ?b] => first [destruct (Rle_dec a b) as [|]; [|exfalso; lra] | destruct (Rle_dec a b) as [|]; [exfalso; lra|]]
  end.
Example C73_case kle : total_order kle -> exists k, alt_check kle (Some LS_Power) (demo_single [4; 5] [10; 20]) = Ok k /\ incl (k_censored_1 k) (k_stress_1 k).
Proof.
  intros Ho. destruct (proj2 (checks_acceptable kle (Some LS_Power) (demo_single [4; 5] [10; 20]) Ho)) as [k Hk].
  { apply demo_acceptable; [reflexivity|]. repeat (apply Forall_cons; [lra|]). apply Forall_nil. }
  exists k. split; [exact Hk|]. apply check_data_used in Hk. destruct Hk as ((H1 & _ & _ & H2 & _) & _). cbn in H1, H2. injection H1 as <-. injection H2 as <-. intros x. cbn. tauto.
Qed.

(** Items censored at 5 and 10, failures at 10 and 20: the item censored at 10 is put with the failures at 20, and
    the failures at 10 are left with none. *)
Theorem C73_single_refuted : exists a, acceptable false a /\ forall kle model, total_order kle -> is_dual model a = false ->
  exists k, alt_check kle model a = Ok k /\ ~ grouped false k /\
    k_stresses k = [(20, 0); (10, 0)] /\ combine (k_censored k) (k_censored_1 k) = [(4, 5); (5, 10)] /\ k_censored_groups k = Some [[5]; []; [4]].
Proof.
  exists (demo_single [4; 5] [5; 10]). assert (acceptable false (demo_single [4; 5] [5; 10])) as HA.
  { apply demo_acceptable; [reflexivity|]. repeat (apply Forall_cons; [lra|]). apply Forall_nil. }
  split; [exact HA|]. intros kle model Ho Hd. pose proof (checks_acceptable kle model (demo_single [4; 5] [5; 10]) Ho) as HK. rewrite Hd in HK. cbv zeta in HK. apply HK in HA. clear HK.
  destruct HA as [k H]. exists k. split; [exact H|].
  destruct (alt_check_form kle model (demo_single [4; 5] [5; 10])) as [(e & E & _)|(s1 & s2 & rc & c1 & c2 & keys & fg & cg & o & u & HU & _ & _ & _ & HG & _ & E)]; [congruence|].
  rewrite H in E. apply ok_eq in E. rewrite Hd in *. destruct HU as (U1 & U2 & U3 & U4 & U5). cbn in U1, U2, U3, U4, U5. injection U1 as <-. subst s2 rc c2. injection U4 as <-.
  assert (keys = [(10, 0); (20, 0)] /\ cg = Some [[4]; []; [5]]) as [-> ->].
  { revert HG. unfold all_groups, stress_groups, demo_single, group_keys, groupby, group_keys, group_values. cbn [bind andb nodup in_dec g_failures combine].
    unfold in_dec. cbn [list_rec list_rect]. decide_R. cbn [isort insert]. unfold Rleb. decide_R. cbn [isort insert map filter fst snd]. decide_R. cbn [map filter fst snd add_empty in_dec].
    intros HG. apply ok_eq in HG. injection HG as <- <- <-. split; [reflexivity|]. unfold in_dec. cbn [list_rec list_rect]. decide_R. reflexivity. }
  subst k. cbn [k_stresses k_censored k_censored_1 k_censored_groups rev app option_map combine]. split; [|auto].
  intros (_ & _ & _ & G). cbn [k_stresses k_censored k_censored_1 k_censored_groups rev app option_map map] in G. discriminate G.
Qed.
Print Assumptions C73_single_refuted.

(** ** C74 *)

(** Term by term, for the 24 fitters. *)
Theorem C74_terms d m p shape t s D : scale_ok m p -> shape_ok d shape -> positive_item (dual_stress m) (t, s) -> life_distribution d m p shape s D ->
  let L := alt_life m p (fst s) (snd s) in
  density_at (Single D) t (exp (alt_logf d L shape t)) /\ survival_at (Single D) t (exp (alt_logR d L shape t)).
Proof.
  intros Hs Hp (H0 & H1 & H2) HD. cbn [fst snd] in *. rewrite (life_distribution_unique _ _ _ _ _ _ Hs H1 HD). apply plain_terms; [now apply life_pos|assumption..].
Qed.
Print Assumptions C74_terms.
(** The life-stress distribution exists and is unique. *)
Theorem C74_distribution d m p shape s : scale_ok m p -> 0 < fst s -> exists D, life_distribution d m p shape s D /\ forall D', life_distribution d m p shape s D' -> D' = D.
Proof.
  intros Hs H1. exists (alt_distribution d (alt_life m p (fst s) (snd s)) shape). split; [now apply life_distribution_exists|]. intros D' HD. now apply life_distribution_unique.
Qed.
Print Assumptions C74_distribution.
Theorem C74_likelihood d m p shape f rc P S : scale_ok m p -> shape_ok d shape ->
  Forall (positive_item (dual_stress m)) f -> Forall (positive_item (dual_stress m)) rc ->
  Forall2 (density_of d m p shape) f P -> Forall2 (survival_of d m p shape) rc S ->
  - alt_LL d m p shape f rc = ln (rprod P * rprod S).
Proof. exact (alt_likelihood d m p shape f rc P S). Qed.
Print Assumptions C74_likelihood.
Example C74_case : exists P S, let p := {| l_0 := 5; l_1 := 2; l_2 := 3 |} in scale_ok LS_Power_Exponential p /\ shape_ok A_Lognormal 2 /\
  Forall (positive_item true) [(4, (2, 3)); (5, (1, 7))] /\ Forall2 (density_of A_Lognormal LS_Power_Exponential p 2) [(4, (2, 3)); (5, (1, 7))] P /\
  Forall2 (survival_of A_Lognormal LS_Power_Exponential p 2) [(4, (2, 3))] S.
Proof.
  set (p := {| l_0 := 5; l_1 := 2; l_2 := 3 |}). assert (scale_ok LS_Power_Exponential p) as Hs by (cbn; lra). assert (shape_ok A_Lognormal 2) as Hp by (cbn; lra).
  assert (forall t s, 0 < t -> 0 < fst s -> exists v w, density_of A_Lognormal LS_Power_Exponential p 2 (t, s) v /\ survival_of A_Lognormal LS_Power_Exponential p 2 (t, s) w) as K.
  { intros t s Ht H1. pose proof (life_distribution_exists A_Lognormal LS_Power_Exponential p 2 s H1 Hs) as HD.
    destruct (plain_terms A_Lognormal _ 2 t (life_pos LS_Power_Exponential p (fst s) (snd s) Hs H1) Hp Ht) as [K1 K2]. do 2 eexists. split; eexists; split; [exact HD|exact K1|exact HD|exact K2]. }
  destruct (K 4 (2, 3)) as (v1 & w1 & V1 & W1); [lra|cbn; lra|]. destruct (K 5 (1, 7)) as (v2 & w2 & V2 & W2); [lra|cbn; lra|].
  exists [v1; v2], [w1]. split; [exact Hs|]. split; [exact Hp|]. split; [repeat (apply Forall_cons; [unfold positive_item; cbn [fst snd]; lra|]); apply Forall_nil|]. split; repeat (apply Forall2_cons; [assumption|]); apply Forall2_nil.
Qed.

(** ** C104 *)

(** Every row of the table: the estimate lies between its limits, and the lower limit of a positive parameter is
    positive. *)
Theorem C104_limits kle d m noisy fit2P minimize diag a r i row : alt_fit kle d m noisy fit2P minimize diag a = Ok r ->
  scale_ok m (a_params r) -> shape_ok d (a_shape r) -> nth_error (a_limits r) i = Some row ->
  nth_error (estimates d m (a_params r) (a_shape r)) i = Some (p_est row) /\ brackets row /\
  (In i (positive_parameters d m) -> exists l, p_lower row = Fin l /\ 0 < l).
Proof.
  intros H Hs Hp Hn. destruct (alt_fit_inv _ _ _ _ _ _ _ _ _ H) as (k & guess & fits & lims & H1 & _ & _ & (_ & H5 & E & _)). rewrite E in Hn. clear E.
  destruct (check_data_used _ _ _ _ H1) as (_ & (_ & _ & _ & _ & _ & HC & _) & _ & EC & _). rewrite EC in H5.
  destruct (alt_limits_row _ _ _ _ _ _ _ _ _ HC (estimates_ok d m _ _ Hs Hp) H5 Hn) as (kd & e & s & z & Hk & He & Hs0 & Hz & Hok & E0 & E1 & E2 & _).
  rewrite E0. split; [exact He|]. split.
  - destruct (limits_bracket kd z e s Hok Hs0 Hz) as (l & u & F1 & F2 & F3). rewrite limits_est in F3. exists l, u. rewrite E0, E1, E2. auto.
  - intros Hi. assert (kd = PLog) as ->.
    { destruct m, d; cbn [positive_parameters estimate_kinds dual_stress app] in *; cbn in Hi; repeat destruct Hi as [<-|Hi]; try contradiction; cbn in Hk; congruence. }
    cbn [estimate_ok] in Hok. rewrite E1. cbn [param_limits p_lower]. eexists. split; [reflexivity|]. apply Rmult_lt_0_compat; [exact Hok|apply exp_pos].
Qed.
Print Assumptions C104_limits.
(** A higher confidence level: the same estimates and goodness of fit, and every interval contains the former one. *)
Theorem C104_widens kle d m noisy fit2P minimize diag a CI' r r' : alt_fit kle d m noisy fit2P minimize diag a = Ok r ->
  alt_fit kle d m noisy fit2P minimize diag (with_CI a CI') = Ok r' -> g_CI a <= CI' ->
  a_params r' = a_params r /\ a_shape r' = a_shape r /\ a_gof r' = a_gof r /\ a_use r' = a_use r /\ a_change r' = a_change r /\
  (scale_ok m (a_params r) -> shape_ok d (a_shape r) -> forall i row row', nth_error (a_limits r) i = Some row -> nth_error (a_limits r') i = Some row' -> inside_of row row').
Proof.
  intros H H' HC. destruct (alt_fit_inv _ _ _ _ _ _ _ _ _ H) as (k & guess & fits & lims & H1 & H2 & H3 & (H4 & H5 & E5 & H6 & H7 & H8)).
  destruct (alt_fit_inv _ _ _ _ _ _ _ _ _ H') as (k' & guess' & fits' & lims' & H1' & H2' & H3' & (H4' & H5' & E5' & H6' & H7' & H8')).
  pose proof (check_data_used _ _ _ _ H1) as (_ & (_ & _ & _ & _ & _ & HC0 & _) & _ & EC & _). pose proof (check_data_used _ _ _ _ H1') as (_ & (_ & _ & _ & _ & _ & HC1 & _) & _ & EC' & _).
  rewrite (checked_CI _ _ _ _ _ _ H1 H1') in *. clear H1'. cbn [with_CI g_CI k_failures k_stress_1 k_stress_2 k_censored k_censored_1 k_censored_2 k_CI k_optimizer k_use k_failure_groups k_censored_groups k_stresses] in *.
  rewrite H2 in H2'. injection H2' as <-. rewrite H3 in H3'. injection H3' as <-. cbv zeta in *. rewrite H4 in H4'. injection H4' as E1 E2 E3 E4. symmetry in E3, E4, E2, E1. rewrite E2, E3, E4 in *.
  split; [reflexivity|]. split; [reflexivity|]. split; [congruence|]. split; [congruence|]. split; [congruence|].
  intros Hs Hp i row row' Hr Hr'. rewrite E5 in Hr. rewrite E5' in Hr'. rewrite EC in H5.
  pose proof (estimates_ok d m _ _ Hs Hp) as HF. set (dg := diag (a_params r, a_shape r)) in *.
  destruct (alt_limits_row _ _ _ _ _ _ _ _ _ HC0 HF H5 Hr) as (kd & e & s & z & Hk & He & Hs0 & Hz & Hok & F0 & F1 & F2 & Z1 & Z2 & D1).
  destruct (alt_limits_row _ _ _ _ _ _ _ _ _ HC1 HF H5' Hr') as (kd' & e' & s' & z' & Hk' & He' & Hs0' & Hz' & Hok' & F0' & F1' & F2' & Z1' & Z2' & D1').
  rewrite Hk in Hk'. injection Hk' as <-. rewrite He in He'. injection He' as <-. pose proof (Z_mono (g_CI a) CI' (proj1 HC0) HC (proj2 HC1)) as HZ.
  assert (z <= z' /\ (dg = None \/ s = s')) as [Hzz Hss].
  { destruct dg as [c|].
    - rewrite (Z1 ltac:(discriminate)), (Z1' ltac:(discriminate)). split; [exact HZ|right]. destruct (D1 c eq_refl) as (v & Hv & ->). destruct (D1' c eq_refl) as (v' & Hv' & ->).
      rewrite Hv in Hv'. now injection Hv' as <-.
    - rewrite (Z2 eq_refl), (Z2' eq_refl). split; [lra|now left]. }
  assert (inside_of (param_limits kd z e s) (param_limits kd z' e s')) as (_ & l & u & l' & u' & G1 & G2 & G3 & G4 & G5).
  { destruct Hss as [Hd| ->].
    - rewrite (Z2 Hd), (Z2' Hd). destruct (limits_at_0 kd e s Hok) as (A0 & A1 & A2). destruct (limits_at_0 kd e s' Hok) as (B0 & B1 & B2).
      split; [now rewrite A0, B0|]. exists e, e, e, e. repeat (split; [assumption|]). lra.
    - apply limits_nested; [exact Hok|exact Hs0'|lra]. }
  split; [congruence|]. exists l, u, l', u'. repeat (split; [congruence|]). exact G5.
Qed.
Print Assumptions C104_widens.
(** Log-likelihood, AICc and BIC of the reported model. *)
Theorem C104_goodness kle d m noisy fit2P minimize diag a r f rc P S : alt_fit kle d m noisy fit2P minimize diag a = Ok r ->
  data_of (dual_stress m) a f rc -> Forall (positive_item (dual_stress m)) f -> Forall (positive_item (dual_stress m)) rc ->
  scale_ok m (a_params r) -> shape_ok d (a_shape r) ->
  Forall2 (density_of d m (a_params r) (a_shape r)) f P -> Forall2 (survival_of d m (a_params r) (a_shape r)) rc S ->
  let L := rprod P * rprod S in let n := (length f + length rc)%nat in let k := number_of_parameters d m in let g := a_gof r in
  loglik g = ln L /\ loglik2 g = - 2 * ln L /\ BIC g = INR k * ln (INR n) - 2 * ln L /\
  ((n > k + 1)%nat -> AICc g = Some (2 * INR k - 2 * ln L + 2 * INR k * (INR k + 1) / (INR n - INR k - 1))) /\
  ((n <= k + 1)%nat -> AICc g = None).
Proof.
  intros H (s1 & s2 & c & c1 & c2 & HU & Ef & Erc) Hf Hc Hs Hp HP HS.
  destruct (alt_fit_inv _ _ _ _ _ _ _ _ _ H) as (kk & guess & fits & lims & H1 & _ & _ & (_ & _ & _ & HG & _)). cbn [fst snd] in HG. rewrite !items_pairs, estimates_length in HG.
  destruct (check_data_used _ _ _ _ H1) as (HU' & (L1 & L2 & L3 & _) & EF & _). rewrite EF in HG. destruct (used_unique _ _ _ _ _ _ _ _ _ _ _ _ HU HU') as (-> & -> & -> & -> & ->). rewrite <- Ef, <- Erc in HG.
  assert (length f = length (g_failures a)) as Lf by (rewrite Ef; unfold pairs_of; destruct (dual_stress m); rewrite combine_length, ?combine_length, ?map_length; try (destruct (L3 eq_refl)); lia).
  assert (length rc = length (k_censored kk)) as Lr by (rewrite Erc; unfold pairs_of; destruct (dual_stress m); rewrite combine_length, ?combine_length, ?map_length; try (destruct (L3 eq_refl)); lia).
  rewrite <- Lf, <- Lr in HG. pose proof (alt_likelihood d m _ _ f rc P S Hs Hp Hf Hc HP HS) as E. cbv zeta. rewrite HG. clear HG.
  set (L := rprod P * rprod S) in *. assert (alt_LL d m (a_params r) (a_shape r) f rc = - ln L) as -> by lra.
  set (n := (length f + length rc)%nat). set (k := number_of_parameters d m).
  unfold goodness. cbn [loglik loglik2 BIC AICc]. rewrite <- !INR_IZR_INZ. repeat split; try field; try lra.
  - intros Hn. destruct (Z.ltb_spec 0 (Z.of_nat n - Z.of_nat k - 1)); [|lia]. f_equal.
    rewrite !minus_IZR, <- !INR_IZR_INZ. assert (INR n - INR k - 1 > 0) by (apply lt_INR in Hn; rewrite plus_INR in Hn; simpl INR in Hn; lra).
    field. lra.
  - intros Hn. destruct (Z.ltb_spec 0 (Z.of_nat n - Z.of_nat k - 1)); [lia|reflexivity].
Qed.
Print Assumptions C104_goodness.

(** ** C105 *)

(** Exactly the calls that meet the conditions are accepted; every other one raises ValueError. *)
Theorem C105_accepted kle model a : total_order kle ->
  (acceptable (is_dual model a) a -> exists k, alt_check kle model a = Ok k) /\
  (~ acceptable (is_dual model a) a -> alt_check kle model a = Err ValueError).
Proof.
  intros Ho. split; [apply (checks_acceptable kle model a Ho)|]. intros N. destruct (alt_check_form kle model a) as [(e & E & ->)|(s1 & s2 & rc & c1 & c2 & keys & fg & cg & o & u & _ & _ & _ & _ & _ & _ & E)]; [exact E|].
  exfalso. apply N, (checks_acceptable kle model a Ho). eauto.
Qed.
Print Assumptions C105_accepted.
Theorem C105_rejected kle d m noisy fit2P minimize diag fit sort exclude by_ a : total_order kle ->
  (~ acceptable (dual_stress m) a -> alt_fit kle d m noisy fit2P minimize diag a = Err ValueError) /\
  (~ acceptable (match g_stress_2 a with Some _ => true | None => false end) a -> Fit_Everything_ALT kle fit sort exclude by_ a = Err ValueError).
Proof.
  intros Ho. split; intros N.
  - unfold alt_fit. now rewrite (proj2 (C105_accepted kle (Some m) a Ho) N).
  - unfold Fit_Everything_ALT. now rewrite (proj2 (C105_accepted kle None a Ho) N).
Qed.
Print Assumptions C105_rejected.

(** Accepted data are fitted if the stresses are positive, no stress has all its (two or more) failures at the same time, and
    the Hessian at the estimate can be inverted or some optimizer succeeded. Missing: the other accepted data, see
    C105_ties_refuted and C105_hessian_refuted. *)
Theorem C105_fitted_partial kle d m noisy fit2P minimize diag a : total_order kle -> acceptable (dual_stress m) a ->
  (forall s1, g_stress_1 a = Some s1 -> Forall (Rlt 0) s1) ->
  (forall f rc, data_of (dual_stress m) a f rc -> forall s, let at_s := at_stress Rpair_dec s (map snd f) (map fst f) in (length at_s <= 1)%nat \/ two_values at_s) ->
  ((forall est, diag est <> None) \/ (forall o g, fst (minimize o g) = true)) ->
  exists r, alt_fit kle d m noisy fit2P minimize diag a = Ok r.
Proof.
  intros Ho Ha Hpos Hties Hcase. destruct (fit_steps kle d m noisy fit2P minimize diag a Ho Ha Hpos Hties) as (k & guess & fits & ok & o & est & Hk & HM & HOK & _).
  assert (exists lims, alt_limits d m (k_CI k) (estimates d m (fst est) (snd est)) (diag est) o = Ok lims) as [lims HL]; [|now apply (HOK lims)].
  unfold alt_limits. destruct (diag est) as [c|] eqn:ED; [eauto|]. destruct Hcase as [H|H]; [now apply H in ED|].
  destruct o as [o|]; [eauto|]. exfalso. unfold ALT_MLE in HM. destruct (mle_spec _ _ _ _ _ HM) as (os & Hos & [(o & x & E & _)|[E HF]]); [discriminate|].
  assert (forall LLf o g, fst (fst (loglik_optimizer minimize LLf o g)) = true) as K.
  { intros LLf o g. destruct (runs_spec minimize LLf o 5 g (IZR 1000000) _ eq_refl) as (n & Hn & E1 & _). unfold loglik_optimizer. set (q := mle_runs minimize LLf 5 o g (IZR 1000000)) in *.
    assert (forall n g, (1 <= n)%nat -> fst (rerun (minimize o) n g) = true) as R by (induction n0 as [|n0 IH]; intros g0 H0; [lia|]; destruct n0 as [|n0]; [apply H|cbn [rerun]; apply IH; lia]).
    specialize (R n g ltac:(lia)). rewrite <- E1 in R. exact R. }
  assert (os <> []) as Hne.
  { pose proof (check_data_used _ _ _ _ Hk) as (_ & _ & _ & _ & HO & _). apply check_optimizer_value in HO. revert HO Hos. generalize (k_optimizer k). intros q HO Hos. cbn in HO. repeat destruct HO as [<-|HO]; try contradiction; cbn in Hos; injection Hos as <-; discriminate. }
  destruct os as [|o0 os]; [congruence|]. unfold tried in HF. cbn [attempts] in HF.
  match type of HF with forall a0, In a0 (if ?b then _ else _) -> _ => destruct b end; specialize (HF _ (or_introl eq_refl)); unfold a_ok in HF; cbn [fst snd] in HF; rewrite K in HF; discriminate.
Qed.
Print Assumptions C105_fitted_partial.
Definition demo_ties : alt_args :=
  {| g_failures := [1; 1; 2; 3]; g_stress_1 := Some [10; 10; 20; 20]; g_stress_2 := None; g_censored := None; g_censored_1 := None; g_censored_2 := None;
     g_CI := 19 / 20; g_optimizer := None; g_use := None |}.
(** Two equal failure times and nothing else at a stress: accepted, then rejected by the fitter of that group. *)
Theorem C105_ties_refuted : acceptable false demo_ties /\ forall kle d m noisy fit2P minimize diag, total_order kle -> dual_stress m = false ->
  (exists k, alt_check kle (Some m) demo_ties = Ok k) /\ alt_fit kle d m noisy fit2P minimize diag demo_ties = Err ValueError.
Proof.
  assert (acceptable false demo_ties) as HA.
  { exists [10; 10; 20; 20], [], [], [], []. split; [unfold used_stresses; cbn; auto|]. cbn [demo_ties g_failures g_CI g_optimizer g_use known_optimizer use_fits].
    split; [reflexivity|]. split; [reflexivity|]. split; [discriminate|]. split; [intros t [H|[]]; cbn in H; destruct H as [<-|[<-|[<-|[<-|[]]]]]; lra|].
    split; [lra|]. split; [exact I|]. split; [exact I|]. split; [exists 10, 20; cbn; split; [tauto|]; split; [tauto|lra]|]. split; [discriminate|]. split; [|discriminate].
    exists [((10, 0), 1); ((20, 0), 2); ((20, 0), 3)]. split; [|split; [intros x Hx; cbn in *; tauto|reflexivity]].
    constructor; [cbn; intros [H|[H|[]]]; injection H; lra|]. constructor; [cbn; intros [H|[]]; injection H; lra|]. constructor; [intros []|constructor]. }
  split; [exact HA|]. intros kle d m noisy fit2P minimize diag Ho Hd.
  assert (exists k, alt_check kle (Some m) demo_ties = Ok k) as [k H] by (apply (checks_acceptable kle (Some m) demo_ties Ho); cbn [is_dual]; now rewrite Hd).
  split; [eauto|]. unfold alt_fit. rewrite H. cbn [bind].
  destruct (alt_check_form kle (Some m) demo_ties) as [(e & E & _)|(s1 & s2 & rc & c1 & c2 & keys & fg & cg & o & u & HU & _ & _ & _ & HG & _ & E)]; [congruence|].
  rewrite H in E. apply ok_eq in E. cbn [is_dual] in HU, HG. rewrite Hd in HU, HG. destruct HU as (U1 & U2 & U3 & U4 & U5). cbn in U1, U2, U3, U4, U5. injection U1 as <-. subst s2 rc c1 c2.
  assert (fg = [[1; 1]; [2; 3]] /\ cg = None) as [-> ->].
  { revert HG. unfold all_groups, stress_groups, demo_ties, group_keys, groupby, group_keys, group_values. cbn [bind andb nodup in_dec g_failures combine].
    unfold in_dec. cbn [list_rec list_rect]. decide_R. cbn [isort insert]. unfold Rleb. decide_R. cbn [isort insert map filter fst snd]. decide_R. cbn [map filter fst snd].
    intros HG. apply ok_eq in HG. injection HG as _ <- <-. auto. }
  subst k. cbn [k_failures k_stress_1 k_stress_2 k_failure_groups k_censored_groups rev app option_map demo_ties g_failures].
  destruct (least_squares_ok m noisy [1; 1; 2; 3] [10; 10; 20; 20] []) as [guess ->]; [reflexivity|repeat (apply Forall_cons; [lra|]); apply Forall_nil|exists 10, 20; cbn; split; [tauto|]; split; [tauto|lra]|].
  cbn [bind group_fits length Nat.ltb Nat.leb hd tl].
  assert (forall f, Forall (Rlt 0) f -> (1 <= unique_count f)%nat -> check_data (group_dname d) false f [] = if (unique_count f <? 2)%nat then Err ValueError else Ok (f, [])) as K.
  { intros f Hf Hu. rewrite check_positive; [|exact Hf|constructor|destruct d; discriminate|exact Hu]. destruct d; reflexivity. }
  rewrite (K [2; 3]); [|repeat (apply Forall_cons; [lra|]); apply Forall_nil|rewrite unique_NoDup by (apply NoDup2; lra); simpl; lia].
  rewrite (unique_NoDup [2; 3]) by (apply NoDup2; lra). cbn [length Nat.ltb Nat.leb bind fst snd].
  assert (unique_count [1; 1] = 1%nat) as EU by (unfold unique_count; cbn [nodup in_dec]; unfold in_dec; cbn [list_rec list_rect]; decide_R; reflexivity).
  rewrite (K [1; 1]); [|repeat (apply Forall_cons; [lra|]); apply Forall_nil|rewrite EU; lia]. rewrite EU. reflexivity.
Qed.
Print Assumptions C105_ties_refuted.
(** If all optimizers fail and the Hessian at the initial guess cannot be inverted, composing the warning raises TypeError. *)
Theorem C105_hessian_refuted kle d m noisy fit2P minimize diag a : total_order kle -> acceptable (dual_stress m) a ->
  (forall s1, g_stress_1 a = Some s1 -> Forall (Rlt 0) s1) ->
  (forall f rc, data_of (dual_stress m) a f rc -> forall s, let at_s := at_stress Rpair_dec s (map snd f) (map fst f) in (length at_s <= 1)%nat \/ two_values at_s) ->
  (forall est, diag est = None) -> (forall o g, fst (minimize o g) = false) ->
  alt_fit kle d m noisy fit2P minimize diag a = Err TypeError.
Proof.
  intros Ho Ha Hpos Hties Hdiag Hmin. destruct (fit_steps kle d m noisy fit2P minimize diag a Ho Ha Hpos Hties) as (k & guess & fits & ok & o & est & Hk & HM & _ & HE).
  apply HE. unfold alt_limits. rewrite Hdiag. destruct o as [o|]; [|reflexivity]. exfalso.
  unfold ALT_MLE in HM. destruct (mle_spec _ _ _ _ _ HM) as (os & Hos & [(o' & x & E & (b & Hb & Hok & _) & _)|[E HF]]); [|discriminate].
  unfold tried in Hb. apply attempts_In in Hb. destruct Hb as [_ Hb]. unfold a_ok in Hok. rewrite Hb in Hok.
  match type of Hok with fst (fst (loglik_optimizer _ ?LLf ?oo ?g)) = true => destruct (runs_spec minimize LLf oo 5 g (IZR 1000000) _ eq_refl) as (n & Hn & E1 & _); unfold loglik_optimizer in Hok; set (q := mle_runs minimize LLf 5 oo g (IZR 1000000)) in *;
    assert (forall n0 g0, (1 <= n0)%nat -> fst (rerun (minimize oo) n0 g0) = false) as R by (induction n0 as [|n0 IH]; intros g0 H0; [lia|]; destruct n0 as [|n0]; [apply Hmin|cbn [rerun]; apply IH; lia]) end.
  match type of E1 with _ = rerun _ _ ?g => specialize (R n g ltac:(lia)) end. rewrite <- E1 in R. cbn [fst] in R. congruence.
Qed.
Print Assumptions C105_hessian_refuted.
Example C105_case : acceptable false (demo_single [4; 5] [10; 20]) /\
  forall f rc, data_of false (demo_single [4; 5] [10; 20]) f rc -> forall s, let at_s := at_stress Rpair_dec s (map snd f) (map fst f) in (length at_s <= 1)%nat \/ two_values at_s.
Proof.
  split; [apply demo_acceptable; [reflexivity|repeat (apply Forall_cons; [lra|]); apply Forall_nil]|].
  intros f rc (s1 & s2 & c & c1 & c2 & (U1 & U2 & _) & -> & _) s. cbn in U1, U2. injection U1 as <-. subst s2. cbn [demo_single g_failures pairs_of map combine snd fst at_stress].
  destruct (Rpair_dec (10, 0) s) as [<-|N1].
  - right. exists 1, 2. cbn. split; [tauto|]. split; [tauto|lra].
  - left. destruct (Rpair_dec (20, 0) s); cbn; lia.
Qed.

(** ** C106 *)

(** The distribution at the use level stress. *)
Theorem C106_use kle d m noisy fit2P minimize diag a r : alt_fit kle d m noisy fit2P minimize diag a = Ok r ->
  (g_use a = None -> a_use r = None) /\
  (forall s, use_level (dual_stress m) a s -> 0 < fst s -> scale_ok m (a_params r) -> exists D, a_use r = Some D /\ life_distribution d m (a_params r) (a_shape r) s D).
Proof.
  intros H. destruct (alt_fit_inv _ _ _ _ _ _ _ _ _ H) as (k & guess & fits & lims & H1 & H2 & H3 & (_ & _ & _ & _ & H7 & _)). cbv zeta in H7.
  pose proof (check_data_used _ _ _ _ H1) as (_ & _ & _ & _ & _ & Hu). split.
  - intros E. rewrite E in Hu. cbn in Hu. destruct (dual_stress m); injection Hu as Hu; rewrite <- Hu in H7; exact H7.
  - intros s Hs Hp Hsc. assert (k_use k = Some s) as Ek.
    { unfold use_level in Hs. destruct (dual_stress m); [rewrite Hs in Hu; cbn in Hu; injection Hu as <-; now destruct s|]. destruct Hs as (x & E & ->). rewrite E in Hu. cbn in Hu. now injection Hu as <-. }
    rewrite Ek in H7. eexists. split; [exact H7|]. now apply life_distribution_exists.
Qed.
Print Assumptions C106_use.
(** One row for each stress at which there were failures, with the life at that stress and the acceleration factor: the
    ratio of the lives at the use level stress and at that stress. *)
Theorem C106_rows kle d m noisy fit2P minimize diag a r f rc : total_order kle -> alt_fit kle d m noisy fit2P minimize diag a = Ok r -> data_of (dual_stress m) a f rc ->
  NoDup (map h_stress (a_change r)) /\ (forall s, In s (map h_stress (a_change r)) <-> In s (map snd f)) /\
  forall row, In row (a_change r) ->
    (fst (h_stress row) <> 0 -> life_stress m (named m (a_params r)) (fst (h_stress row)) (snd (h_stress row)) (h_life row)) /\
    (g_use a = None -> h_AF row = None) /\
    (forall s, use_level (dual_stress m) a s -> fst s <> 0 -> exists AF L, h_AF row = Some AF /\ life_stress m (named m (a_params r)) (fst s) (snd s) L /\ AF = L / h_life row).
Proof.
  intros Ho H (s1 & s2 & c & c1 & c2 & HU & -> & _). destruct (alt_fit_inv _ _ _ _ _ _ _ _ _ H) as (k & guess & fits & lims & H1 & H2 & H3 & (_ & _ & _ & _ & _ & H8)). cbv zeta in H8.
  pose proof (check_data_used _ _ _ _ H1) as (HU' & (L1 & _ & L3 & _) & EF & _ & _ & Hu). destruct (used_unique _ _ _ _ _ _ _ _ _ _ _ _ HU HU') as (-> & -> & -> & -> & ->).
  destruct (C73_failures kle (Some m) a k Ho H1) as (HN & HI & HFg & _). apply group_fits_length in H3. rewrite HFg, map_length in H3.
  assert (map h_stress (a_change r) = k_stresses k) as ES.
  { rewrite H8, map_map. cbn [h_stress]. clear -H3. revert fits H3. induction (k_stresses k) as [|s l IH]; intros [|x fits] H3; try discriminate; [reflexivity|]. cbn [combine map fst]. f_equal. apply IH. now injection H3. }
  rewrite ES. split; [exact HN|]. split.
  { intros s. rewrite HI. unfold failure_stresses. cbn [is_dual]. set (l := pairs_of _ _ _). assert (map snd (combine (g_failures a) l) = l) as ->; [|reflexivity].
    assert (length (g_failures a) = length l) as Lf by (unfold l, pairs_of; destruct (dual_stress m); [rewrite combine_length, (proj1 (L3 eq_refl)), L1; symmetry; apply Nat.min_id|now rewrite map_length]).
    clear -Lf. clearbody l. revert l Lf. induction (g_failures a) as [|x g IH]; intros [|y l] Lf; try discriminate; [reflexivity|]. cbn [combine map snd]. f_equal. apply IH. now injection Lf. }
  intros row Hr. rewrite H8 in Hr. apply in_map_iff in Hr. destruct Hr as ([s x] & <- & _). cbn [h_stress h_life h_AF fst snd]. split; [intros N; now apply life_spec|]. split.
  - intros E. rewrite E in Hu. cbn in Hu. destruct (dual_stress m); injection Hu as Hu; rewrite <- Hu; reflexivity.
  - intros u Hs Np. assert (k_use k = Some u) as Ek.
    { unfold use_level in Hs. destruct (dual_stress m); [rewrite Hs in Hu; cbn in Hu; injection Hu as <-; now destruct u|]. destruct Hs as (y & E & ->). rewrite E in Hu. cbn in Hu. now injection Hu as <-. }
    rewrite Ek. do 2 eexists. split; [reflexivity|]. split; [now apply life_spec|reflexivity].
Qed.
Print Assumptions C106_rows.
(** The parameters of the row before the change: found by the fitter of the same distribution (Weibull for Exponential
    life) from the failures at that stress, if there are at least two. *)
Lemma check_data_same d f c r : Forall (Rlt 0) f -> check_data (group_dname d) false f c = Ok r -> fst r = f.
Proof.
  intros P H. assert (filter (fun t => Rneqb t 0) f = f) as E.
  { clear H. induction P as [|x f Px P IH]; [reflexivity|]. cbn [filter]. unfold Rneqb at 1. destruct (Req_EM_T x 0); [lra|]. cbn [negb]. now f_equal. }
  unfold check_data in H. apply bind_ok in H. destruct H as (q & H & H2). assert (r = q) as -> by (destruct (_ <? _)%nat; congruence). clear H2.
  destruct d; cbn [group_dname dname_eqb andb] in H; try (injection H as <-; reflexivity);
    (destruct (_ =? _)%nat; [discriminate|]; destruct (existsb _ _); [discriminate|]; injection H as <-; exact E).
Qed.
Lemma group_fits_at d fit2P : forall fg cg fits i x, (forall f, In f fg -> Forall (Rlt 0) f) -> group_fits d fit2P fg cg = Ok fits -> nth_error fits i = Some x -> exists f, nth_error fg i = Some f /\
  ((length f <= 1)%nat /\ x = None \/ (1 < length f)%nat /\ exists c, x = Some (fit2P (group_dname d) f c)).
Proof.
  induction fg as [|f fg IH]; intros cg fits i x HP H E; cbn [group_fits] in H; [injection H as <-; destruct i; discriminate|]. apply bind_ok in H. destruct H as (one & H0 & H). apply bind_ok in H.
  destruct H as (rest & H1 & H). injection H as <-. destruct i as [|i]; [|exact (IH _ _ _ _ (fun y Hy => HP y (or_intror Hy)) H1 E)]. cbn [nth_error] in *. injection E as <-. exists f. split; [reflexivity|].
  destruct (Nat.ltb_spec 1 (length f)) as [L|L]; [right|left; split; [lia|congruence]]. split; [lia|]. apply bind_ok in H0. destruct H0 as (c & H0 & H2). injection H2 as <-.
  exists (snd c). do 2 f_equal. exact (check_data_same _ _ _ _ (HP f (or_introl eq_refl)) H0).
Qed.
Theorem C106_original kle d m noisy fit2P minimize diag a r f rc : total_order kle -> alt_fit kle d m noisy fit2P minimize diag a = Ok r -> data_of (dual_stress m) a f rc ->
  forall row, In row (a_change r) -> let here := map fst (filter (fun it => if Rpair_dec (snd it) (h_stress row) then true else false) f) in
    ((length here <= 1)%nat /\ h_original row = None) \/ ((1 < length here)%nat /\ exists c, h_original row = Some (fit2P (fitted_alone d) here c)).
Proof.
  intros Ho H (s1 & s2 & c & c1 & c2 & HU & -> & _) row Hr. destruct (alt_fit_inv _ _ _ _ _ _ _ _ _ H) as (k & guess & fits & lims & H1 & H2 & H3 & (_ & _ & _ & _ & _ & H8)). cbv zeta in H8.
  pose proof (check_data_used _ _ _ _ H1) as (HU' & (L1 & _ & L3 & _) & EF & _ & _ & Hu). destruct (used_unique _ _ _ _ _ _ _ _ _ _ _ _ HU HU') as (-> & -> & -> & -> & ->).
  destruct (C73_failures kle (Some m) a k Ho H1) as (HN & HI & HFg & _). rewrite H8 in Hr. apply in_map_iff in Hr. destruct Hr as ([s x] & <- & Hc). cbn [h_stress h_original fst snd].
  apply In_nth_error in Hc. destruct Hc as [i Ei]. assert (nth_error (k_stresses k) i = Some s /\ nth_error fits i = Some x) as [E1 E2].
  { clear -Ei. revert fits i Ei. induction (k_stresses k) as [|s0 l IH]; intros [|x0 fits] [|i] Ei; try discriminate; cbn in *; [injection Ei as -> ->; auto|now apply IH]. }
  assert (forall y, In y (k_failure_groups k) -> Forall (Rlt 0) y) as HP.
  { destruct (proj1 (checks_acceptable kle (Some m) a Ho) (ex_intro _ k H1)) as (? & ? & ? & ? & ? & _ & _ & _ & _ & P & _). rewrite HFg, EF. intros y Hy. apply in_map_iff in Hy. destruct Hy as (s0 & <- & _).
    apply Forall_forall. intros t Ht. apply P. left. clear -Ht. revert Ht. generalize (failure_stresses (is_dual (Some m) a) k) (g_failures a). induction l as [|z l IH]; intros [|w ts] Ht; try (destruct Ht; fail); cbn [at_stress] in Ht.
    destruct (Rpair_dec z s0); [destruct Ht as [->|Ht]; [now left|]|]; right; now apply IH. }
  destruct (group_fits_at _ _ _ _ _ _ _ HP H3 E2) as (g & Eg & K). rewrite HFg, nth_error_map, E1 in Eg. injection Eg as Eg.
  replace (map fst (filter (fun it => if Rpair_dec (snd it) s then true else false) (combine (g_failures a) (pairs_of (dual_stress m) (k_stress_1 k) (k_stress_2 k))))) with g.
  2:{ rewrite <- Eg, EF. unfold failure_stresses. cbn [is_dual]. generalize (pairs_of (dual_stress m) (k_stress_1 k) (k_stress_2 k)) (g_failures a). clear.
      induction l as [|z l IH]; intros [|w ts]; try reflexivity. cbn [at_stress combine filter snd]. destruct (Rpair_dec z s); cbn [map fst]; now rewrite IH. }
  destruct K as [[K1 ->]|(K1 & cc & ->)]; [left|right]; (split; [assumption|]); [reflexivity|]. exists cc. now destruct d.
Qed.
Print Assumptions C106_original.
(** An acceleration factor AF scales time for Weibull, Lognormal and Exponential life: the survival probability at time t
    under stress s is that at time AF * t under the use level stress u. *)
Theorem C106_acceleration d m p shape s u Ls Lu Ds Du t v : d <> A_Normal -> scale_ok m p -> shape_ok d shape -> 0 < fst s -> 0 < fst u -> 0 < t ->
  life_stress m (named m p) (fst s) (snd s) Ls -> life_stress m (named m p) (fst u) (snd u) Lu ->
  life_distribution d m p shape s Ds -> life_distribution d m p shape u Du -> survival_at (Single Ds) t v -> survival_at (Single Du) (Lu / Ls * t) v.
Proof.
  intros Hd Hs Hp H1 H2 Ht HLs HLu HDs HDu Hv. rewrite (life_unique _ _ _ _ _ _ HLs (life_spec m p (fst s) (snd s) ltac:(lra))). rewrite (life_unique _ _ _ _ _ _ HLu (life_spec m p (fst u) (snd u) ltac:(lra))).
  apply life_distribution_unique in HDs; try assumption. apply life_distribution_unique in HDu; try assumption. subst Ds Du. clear HLs HLu.
  pose proof (life_pos m p (fst s) (snd s) Hs H1) as P1. pose proof (life_pos m p (fst u) (snd u) Hs H2) as P2. set (A := alt_life m p (fst s) (snd s)) in *. set (B := alt_life m p (fst u) (snd u)) in *.
  assert (0 < B / A * t) as P3 by (apply Rmult_lt_0_compat; [now apply Rdiv_lt_0_compat|exact Ht]).
  rewrite (survival_unique _ _ _ _ Hv (proj2 (plain_terms d A shape t P1 Hp Ht))). replace (alt_logR d A shape t) with (alt_logR d B shape (B / A * t)); [now apply plain_terms|].
  destruct d; cbn [alt_logR]; try congruence.
  - replace (B / A * t / B) with (t / A) by (field; lra). reflexivity.
  - assert (ln (B / A * t) - ln B = ln t - ln A) as -> by (rewrite ln_mult, ln_div by (try assumption; now apply Rdiv_lt_0_compat); lra). reflexivity.
  - f_equal. field. lra.
Qed.
Print Assumptions C106_acceleration.
Example C106_case : exists Ls Lu Ds Du v, let p := {| l_0 := 2; l_1 := -3; l_2 := 0 |} in scale_ok LS_Power p /\ life_stress LS_Power (named LS_Power p) 5 0 Ls /\ life_stress LS_Power (named LS_Power p) 1 0 Lu /\
  life_distribution A_Weibull LS_Power p 2 (5, 0) Ds /\ life_distribution A_Weibull LS_Power p 2 (1, 0) Du /\ survival_at (Single Ds) 4 v.
Proof.
  set (p := {| l_0 := 2; l_1 := -3; l_2 := 0 |}). assert (scale_ok LS_Power p) as Hs by (cbn; lra).
  do 5 eexists. split; [exact Hs|]. split; [apply life_spec; lra|]. split; [apply life_spec; lra|]. split; [apply life_distribution_exists; [cbn; lra|exact Hs]|].
  split; [apply life_distribution_exists; [cbn; lra|exact Hs]|]. apply plain_terms; [apply life_pos; [exact Hs|cbn; lra]|cbn; lra|lra].
Qed.
(** Not so for Normal life, for which the fitters report the factor as well. *)
Theorem C106_normal_refuted : exists p Ds Du t v w, scale_ok LS_Power p /\ life_distribution A_Normal LS_Power p 1 (1, 0) Ds /\ life_distribution A_Normal LS_Power p 1 (/ 2, 0) Du /\ 0 < t /\
  life_stress LS_Power (named LS_Power p) 1 0 1 /\ life_stress LS_Power (named LS_Power p) (/ 2) 0 2 /\ survival_at (Single Ds) t v /\ survival_at (Single Du) (2 / 1 * t) w /\ v <> w.
Proof.
  set (p := {| l_0 := 1; l_1 := -1; l_2 := 0 |}). assert (scale_ok LS_Power p) as Hs by (cbn; lra).
  assert (Rpower 1 (-1) = 1) as E1 by (unfold Rpower; rewrite ln_1, Rmult_0_r; apply exp_0).
  assert (Rpower (/ 2) (-1) = 2) as E2 by (unfold Rpower; rewrite ln_Rinv by lra; replace (-1 * - ln 2) with (ln 2) by ring; apply exp_ln; lra).
  assert (alt_life LS_Power p 1 0 = 1) as L1 by (cbn [alt_life p l_0 l_1]; rewrite E1; ring). assert (alt_life LS_Power p (/ 2) 0 = 2) as L2 by (cbn [alt_life p l_0 l_1]; rewrite E2; ring).
  exists p, (Normal 1 1), (Normal 2 1), 2. do 2 eexists. split; [exact Hs|].
  split; [pose proof (life_distribution_exists A_Normal LS_Power p 1 (1, 0)) as K; cbn [fst snd] in K; rewrite L1 in K; apply K; [lra|exact Hs]|].
  split; [pose proof (life_distribution_exists A_Normal LS_Power p 1 (/ 2, 0)) as K; cbn [fst snd] in K; rewrite L2 in K; apply K; [lra|exact Hs]|].
  split; [lra|]. split; [pose proof (life_spec LS_Power p 1 0 ltac:(lra)) as K; rewrite L1 in K; exact K|]. split; [pose proof (life_spec LS_Power p (/ 2) 0 ltac:(lra)) as K; rewrite L2 in K; exact K|].
  split; [apply (plain_terms A_Normal 1 1 2); cbn; lra|]. split; [apply (plain_terms A_Normal 2 1 (2 / 1 * 2)); cbn; lra|].
  assert (forall z, (1 + erf (z / 1 / sqrt 2)) / 2 = Phi z) as K.
  { intros z. rewrite erf_Phi. replace (z / 1 / sqrt 2 * sqrt 2) with z by (field; apply Rgt_not_eq, sqrt_lt_R0; lra). field. }
  cbn [alt_logR]. rewrite !K. rewrite !exp_ln by apply Phi_gt_0. assert (Phi (2 - 2 / 1 * 2) < Phi (1 - 2)) by (apply Phi_increasing; lra). lra.
Qed.
Print Assumptions C106_normal_refuted.
