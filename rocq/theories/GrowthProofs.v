(** Proofs about GrowthModel. *)
From Coquelicot Require Import Coquelicot.
From Coq Require Import String.
From Coq Require Import List Arith Reals Lra Lia Bool Permutation Sorted.
From Verif Require Import Base RealFacts NonparModel RList Linear ConvertModel RepairModel RepairSpec RepairProofs RepairProofs2 RepairProofs3 RegModel RegProofs CIModel LPlotProofs PlotProofs RoundProofs GrowthModel GrowthSpec.
From Verif Require CIProofs MCFProps OtherProofs3.
Import ListNotations.
Open Scope R_scope.

Lemma sorted_R l : StronglySorted Rle (isort Rleb l). Proof. apply isort_R. Qed.
Lemma perm_R l : Permutation (isort Rleb l) l. Proof. apply isort_R. Qed.

Lemma growth_inv l target sp lg m g : reliability_growth (Some l) target sp lg m = Ok (Some g) ->
  l <> [] /\ Forall (Rlt 0) l /\ exists k, resolve_model m = Ok k /\ fit_growth k (isort Rleb l) = Ok (Some (gr_fitted g)) /\
  target_time (gr_fitted g) target = Some (gr_time_to_target g) /\
  gr_plot g = (if sp then Some (draw_growth (gr_fitted g) (isort Rleb l) target (gr_time_to_target g) lg) else None).
Proof.
  unfold reliability_growth. cbv zeta. destruct (isort Rleb l) as [|t0 r0] eqn:El; [discriminate|].
  destruct (Rleb (rmin (t0 :: r0)) 0) eqn:Em; [discriminate|]. apply OtherProofs3.rmin_pos in Em.
  destruct (resolve_model m) as [k|] eqn:Ek; [|discriminate]. cbn [bind].
  destruct (fit_growth k (t0 :: r0)) as [[f|]|] eqn:Ef; cbn [bind]; [|discriminate|discriminate].
  destruct (target_time f target) as [t|] eqn:Et; [|discriminate]. intros H. injection H as <-.
  pose proof (perm_R l) as HP. rewrite El in HP. split; [intros ->; discriminate|]. split.
  - apply (Permutation_Forall HP). exact Em.
  - exists k. cbn [gr_fitted gr_time_to_target gr_plot]. auto.
Qed.

Lemma rmax_sorted l : rmax (isort Rleb l) = rmax l.
Proof. apply MCFProps.rmax_perm, perm_R. Qed.
Lemma isort_ne l : l <> [] -> isort Rleb l <> [].
Proof. intros H E. apply H. apply Permutation_nil. rewrite <- E. apply perm_R. Qed.
Lemma isort_Forall (P : R -> Prop) l : Forall P l -> Forall P (isort Rleb l).
Proof. apply Permutation_Forall. symmetry. apply perm_R. Qed.

(** The observed points. *)
Definition pairs_from (k : nat) (l : list R) : list (R * R) := combine l (map (fun p => fst p / INR (snd p)) (combine l (seq k (length l)))).
Lemma pairs_fst : forall l k, map fst (pairs_from k l) = l.
Proof. unfold pairs_from. induction l as [|a l IH]; intros k; [reflexivity|]. cbn. f_equal. apply IH. Qed.
Lemma pairs_nth : forall l k i x y, nth_error (pairs_from k l) i = Some (x, y) -> y = x / INR (k + i).
Proof.
  unfold pairs_from. induction l as [|a l IH]; intros k i x y H; [now destruct i|]. destruct i as [|i]; cbn in H.
  - injection H as <- <-. now rewrite Nat.add_0_r.
  - apply (IH (S k)) in H. rewrite H. now replace (S k + i)%nat with (k + S i)%nat by lia.
Qed.
Lemma mtbf_pairs l : combine l (mtbf_c l) = pairs_from 1 l. Proof. reflexivity. Qed.
Lemma mtbf_length l : length (mtbf_c l) = length l.
Proof. unfold mtbf_c. rewrite map_length, combine_length, seq_length. lia. Qed.

Lemma points_observed l : observed l (combine (isort Rleb l) (mtbf_c (isort Rleb l))).
Proof.
  rewrite mtbf_pairs. split; [rewrite pairs_fst; apply perm_R|]. split; [rewrite pairs_fst; apply sorted_R|].
  intros i x y H. apply pairs_nth in H. exact H.
Qed.
Lemma observed_unique l p : observed l p -> p = combine (isort Rleb l) (mtbf_c (isort Rleb l)).
Proof.
  intros (HP & HS & HN). assert (isort Rleb l = map fst p) as -> by (apply isort_sorted_perm; [now symmetry|exact HS]).
  rewrite mtbf_pairs. clear HP HS. assert (forall i x y, nth_error p i = Some (x, y) -> y = x / INR (1 + i)) as H by exact HN.
  clear HN. revert H. generalize 1%nat. induction p as [|[x y] p IH]; intros k H; [reflexivity|].
  cbn [map fst]. unfold pairs_from. cbn. f_equal.
  - f_equal. pose proof (H 0%nat x y eq_refl) as E. now rewrite Nat.add_0_r in E.
  - apply (IH (S k)). intros i a b E. specialize (H (S i) a b E). now replace (k + S i)%nat with (S k + i)%nat in H by lia.
Qed.

(** ** Least squares on log axes *)
Definition logs2 (p : list (R * R)) : list (R * R) := map (fun q => (ln (fst q), ln (snd q))) p.
Lemma combine_map2 {A B C D} (f : A -> C) (g : B -> D) : forall u v, combine (map f u) (map g v) = map (fun q => (f (fst q), g (snd q))) (combine u v).
Proof. induction u as [|a u IH]; intros [|b v]; try reflexivity. cbn. f_equal. apply IH. Qed.

Lemma misfit_sse p a b : 0 < b -> log_misfit p a b = sse (logs2 p) a (ln b).
Proof.
  intros Hb. unfold log_misfit, sse, logs2. rewrite map_map. cbn [fst snd]. unfold rsum. f_equal. apply map_ext. intros q.
  assert (ln (b * Rpower (fst q) a) = a * ln (fst q) + ln b) as ->; [|reflexivity].
  rewrite ln_mult; [|exact Hb|apply exp_pos]. unfold Rpower. rewrite ln_exp. ring.
Qed.

(** ** The Duane slope is below one *)
Definition cross (p q : R * R) : R := (fst p - fst q) * (snd p - snd q).
Definition CC (l : list (R * R)) : R :=
  INR (length l) * rsum (map (fun p => fst p * snd p) l) - rsum (map fst l) * rsum (map snd l).
Lemma CC_cons p l : CC (p :: l) = CC l + rsum (map (cross p) l).
Proof.
  assert (rsum (map (cross p) l) = INR (length l) * (fst p * snd p) - fst p * rsum (map snd l) - snd p * rsum (map fst l) + rsum (map (fun p => fst p * snd p) l)) as ->.
  { unfold cross. induction l as [|q l IH]; [cbn; ring|]. cbn [map length]. rewrite !rsum_cons, S_INR, IH. ring. }
  unfold CC. cbn [map length]. rewrite !rsum_cons, S_INR. ring.
Qed.
Lemma classic_all : forall (l : list (R * R)) (a : R), (forall q, In q l -> fst q = a) \/ (exists q, In q l /\ fst q <> a).
Proof.
  induction l as [|p l IH]; intros a; [left; intros q []|]. destruct (Req_dec (fst p) a) as [E|E].
  - destruct (IH a) as [H|(q & H1 & H2)]; [left; intros q [->|Hq]; auto|right; exists q; split; [now right|exact H2]].
  - right. exists p. split; [now left|exact E].
Qed.
Definition before (p q : R * R) : Prop := fst p <= fst q /\ snd p < snd q.
Lemma rsum_pos_one l x : Forall (Rle 0) l -> In x l -> 0 < x -> 0 < rsum l.
Proof.
  induction 1 as [|a l Ha Hl IH]; intros Hi Hx; [destruct Hi|]. rewrite rsum_cons.
  assert (0 <= rsum l) by (apply rsum_nonneg; exact Hl). destruct Hi as [->|Hi]; [lra|]. specialize (IH Hi Hx). lra.
Qed.
Lemma CC_pos l : StronglySorted before l -> 0 <= CC l /\ ((exists p q, In p l /\ In q l /\ fst p <> fst q) -> 0 < CC l).
Proof.
  induction 1 as [|p l HS [IH1 IH2] HF].
  - split; [unfold CC; cbn; lra|]. intros (p & _ & [] & _).
  - rewrite CC_cons. assert (Forall (Rle 0) (map (cross p) l)) as HN.
    { apply Forall_forall. intros x Hx. apply in_map_iff in Hx as (q & <- & Hq). rewrite Forall_forall in HF.
      destruct (HF _ Hq) as [H1 H2]. unfold cross. nra. }
    pose proof (rsum_nonneg _ HN) as H0. split; [lra|]. intros (a & b & Ha & Hb & Hab).
    destruct (classic_all l (fst p)) as [Hall|(q & Hq & Hne)].
    + exfalso. apply Hab. assert (forall c, In c (p :: l) -> fst c = fst p) as E by (intros c [->|Hc]; [reflexivity|now apply Hall]).
      now rewrite (E a Ha), (E b Hb).
    + assert (0 < rsum (map (cross p) l)); [|lra]. apply (rsum_pos_one _ (cross p q) HN); [now apply in_map|].
      rewrite Forall_forall in HF. destruct (HF _ Hq) as [H1 H2]. unfold cross. nra.
Qed.

Definition spread_sum (L : list (R * R)) : R := CC (map (fun q => (fst q, fst q)) L).
Lemma CC_diff L : CC (map (fun q => (fst q, fst q - snd q)) L) = spread_sum L - CC L.
Proof.
  unfold spread_sum, CC. rewrite !map_length, !map_map. cbn [fst snd].
  assert (rsum (map (fun x => fst x * (fst x - snd x)) L) = rsum (map (fun x => fst x * fst x) L) - rsum (map (fun x => fst x * snd x) L)) as ->
    by (induction L as [|q L IH]; [cbn; ring|cbn [map]; rewrite !rsum_cons, IH; ring]).
  assert (rsum (map (fun x => fst x - snd x) L) = rsum (map fst L) - rsum (map snd L)) as ->
    by (induction L as [|q L IH]; [cbn; ring|cbn [map]; rewrite !rsum_cons, IH; ring]).
  change (map (fun x : R * R => fst x) L) with (map fst L). ring.
Qed.
Lemma Sxy_CC p : p <> [] -> INR (length p) * Sxy p = CC p.
Proof. intros H. rewrite Sxy_eq by exact H. unfold CC. field. destruct p; [congruence|apply not_0_INR; discriminate]. Qed.
Lemma Sxx_CC p : p <> [] -> INR (length p) * Sxx p = spread_sum p.
Proof.
  intros H. rewrite Sxx_eq by exact H. unfold spread_sum, CC. rewrite map_length, !map_map. cbn [fst snd].
  rewrite (map_ext (fun x : R * R => fst x * fst x) (fun p => fst p ^ 2)) by (intros; ring).
  change (map (fun x : R * R => fst x) p) with (map fst p). field. destruct p; [congruence|apply not_0_INR; discriminate].
Qed.

(** (ln t, ln i). *)
Definition ranked (k : nat) (l : list R) : list (R * R) := map (fun q => (ln (fst q), ln (INR (snd q)))) (combine l (seq k (length l))).
Lemma ranked_fst : forall l k, map fst (ranked k l) = map ln l.
Proof. unfold ranked. induction l as [|a l IH]; intros k; [reflexivity|]. cbn. f_equal. apply IH. Qed.
Lemma ranked_snd : forall l k q, In q (ranked k l) -> exists j, (k <= j)%nat /\ snd q = ln (INR j).
Proof.
  unfold ranked. induction l as [|a l IH]; intros k q H; [destruct H|]. cbn in H. destruct H as [<-|H].
  - exists k. split; [lia|reflexivity].
  - apply (IH (S k)) in H as (j & Hj & E). exists j. split; [lia|exact E].
Qed.
Lemma ranked_sorted : forall l k, (0 < k)%nat -> Forall (Rlt 0) l -> StronglySorted Rle l -> StronglySorted before (ranked k l).
Proof.
  induction l as [|a l IH]; intros k Hk HP HS; [constructor|]. inversion HS as [|? ? HS' HF]; subst. inversion HP as [|? ? Ha HP']; subst.
  change (ranked k (a :: l)) with ((ln a, ln (INR k)) :: ranked (S k) l). constructor; [apply IH; auto; lia|].
  apply Forall_forall. intros q Hq. split; cbn [fst snd].
  - assert (In (fst q) (map ln l)) as Hi by (rewrite <- (ranked_fst l (S k)); now apply in_map). apply in_map_iff in Hi as (t & <- & Ht).
    rewrite Forall_forall in HF. specialize (HF _ Ht). destruct HF as [HF|<-]; [left; now apply ln_increasing|now right].
  - destruct (ranked_snd _ _ _ Hq) as (j & Hj & ->). apply ln_increasing; [apply lt_0_INR; lia|apply lt_INR; lia].
Qed.
Lemma logs2_ranked : forall l k, (0 < k)%nat -> Forall (Rlt 0) l -> logs2 (pairs_from k l) = map (fun q => (fst q, fst q - snd q)) (ranked k l).
Proof.
  induction l as [|a l IH]; intros k Hk HP; [reflexivity|]. inversion HP as [|? ? Ha HP']; subst.
  change (logs2 (pairs_from k (a :: l))) with ((ln a, ln (a / INR k)) :: logs2 (pairs_from (S k) l)).
  change (ranked k (a :: l)) with ((ln a, ln (INR k)) :: ranked (S k) l). cbn [map fst snd]. rewrite IH by (auto; lia). f_equal. f_equal.
  apply ln_div; [exact Ha|apply lt_0_INR; lia].
Qed.

Lemma two_sorted l : two_times l -> two_times (isort Rleb l).
Proof. intros (a & b & Ha & Hb & Hn). exists a, b. pose proof (Permutation_sym (perm_R l)) as HP. repeat split; [now apply (Permutation_in _ HP)|now apply (Permutation_in _ HP)|exact Hn]. Qed.

Lemma in_pairs l k t : In t l -> exists y, In (t, y) (pairs_from k l).
Proof.
  intros H. rewrite <- (pairs_fst l k) in H. apply in_map_iff in H as ([x y] & E & Hi). cbn in E. subst. now exists y.
Qed.
Lemma logs_spread l k : Forall (Rlt 0) l -> (two_times l <-> Sxx (logs2 (pairs_from k l)) <> 0).
Proof.
  intros HP. rewrite Forall_forall in HP. split.
  - intros (a & b & Ha & Hb & Hn) E. rewrite Sxx_zero in E. apply Hn. destruct (in_pairs l k a Ha) as (ya & Ia), (in_pairs l k b Hb) as (yb & Ib).
    apply ln_inv; [now apply HP|now apply HP|].
    exact (E _ _ (in_map (fun q => (ln (fst q), ln (snd q))) _ _ Ia) (in_map (fun q => (ln (fst q), ln (snd q))) _ _ Ib)).
  - intros H. destruct l as [|a l]; [exfalso; apply H; unfold Sxx; cbn; reflexivity|].
    destruct (classic_all (map (fun x => (x, 0)) l) a) as [E|(q & Hq & Hne)].
    + exfalso. apply H. rewrite Sxx_zero. assert (forall p, In p (logs2 (pairs_from k (a :: l))) -> fst p = ln a) as HE.
      { intros p Hp. apply in_map_iff in Hp as (q & <- & Hq). cbn [fst]. apply (in_map fst) in Hq. rewrite pairs_fst in Hq.
        destruct Hq as [<-|Hq]; [reflexivity|]. f_equal. exact (E (fst q, 0) (in_map (fun x => (x, 0)) _ _ Hq)). }
      intros p q Hp Hq. now rewrite (HE p Hp), (HE q Hq).
    + apply in_map_iff in Hq as (x & <- & Hx). exists a, x. repeat split; [now left|now right|]. cbn in Hne. congruence.
Qed.

Lemma duane_slope l : Forall (Rlt 0) l -> StronglySorted Rle l -> two_times l -> lsq_slope (logs2 (pairs_from 1 l)) < 1.
Proof.
  intros HP HS HT. pose proof (proj1 (logs_spread l 1 HP) HT) as HX. set (p := logs2 (pairs_from 1 l)) in *.
  assert (p <> []) as Hp by (intros E; apply HX; rewrite E; unfold Sxx; cbn; reflexivity).
  pose proof (Sxx_nonneg p) as H0. assert (0 < INR (length p)) as Hn by (apply lt_0_INR; destruct p; [congruence|cbn; lia]).
  pose proof (Sxy_CC p Hp) as E1. pose proof (Sxx_CC p Hp) as E2.
  assert (p = map (fun q => (fst q, fst q - snd q)) (ranked 1 l)) as Ep by (apply logs2_ranked; [lia|exact HP]).
  assert (0 < CC (ranked 1 l)) as HC.
  { apply CC_pos; [apply ranked_sorted; auto|]. destruct HT as (a & b & Ha & Hb & Hne).
    assert (forall t, In t l -> exists q, In q (ranked 1 l) /\ fst q = ln t) as HI.
    { intros t Ht. assert (In (ln t) (map fst (ranked 1 l))) as Hi by (rewrite ranked_fst; now apply in_map). apply in_map_iff in Hi as (q & E & Hq). now exists q. }
    destruct (HI a Ha) as (q & Hq & Eq), (HI b Hb) as (r & Hr & Er). exists q, r. repeat split; auto. rewrite Eq, Er. intros E. apply Hne.
    rewrite Forall_forall in HP. apply ln_inv; auto. }
  assert (CC p = spread_sum p - CC (ranked 1 l)) as E3.
  { rewrite Ep at 1. rewrite CC_diff. f_equal. unfold spread_sum. rewrite Ep, map_map. cbn [fst]. reflexivity. }
  unfold lsq_slope. assert (0 < Sxx p) as HXp by lra. apply (Rmult_lt_reg_r (Sxx p)); [exact HXp|].
  replace (Sxy p / Sxx p * Sxx p) with (Sxy p) by (field; lra). apply (Rmult_lt_reg_l (INR (length p))); [exact Hn|]. lra.
Qed.

Lemma duane_fit l o : Forall (Rlt 0) l -> l <> [] -> fit_growth G_Duane l = Ok o ->
  (o = None /\ ~ two_times l) \/
  (two_times l /\ let p := logs2 (pairs_from 1 l) in o = Some (F_Duane (duane_model (rmax l) (lsq_slope p) (lsq_intercept p)))).
Proof.
  intros HP Hne H. unfold fit_growth in H. cbv zeta.
  assert (map ln l <> []) as Hm by (destruct l; [congruence|discriminate]).
  assert (length (map ln l) = length (map ln (mtbf_c l))) as Hl by (rewrite !map_length, mtbf_length; reflexivity).
  assert (combine (map ln l) (map ln (mtbf_c l)) = logs2 (pairs_from 1 l)) as EC by (rewrite combine_map2, mtbf_pairs; reflexivity).
  destruct (solve2_lsq _ _ Hm Hl) as [H0 H1]. rewrite EC in H0, H1. pose proof (logs_spread l 1 HP) as HT.
  destruct (Req_dec (Sxx (logs2 (pairs_from 1 l))) 0) as [E|E].
  - left. rewrite (H0 E) in H. split; [congruence|]. rewrite HT. tauto.
  - right. rewrite (H1 E) in H. split; [now apply HT|]. congruence.
Qed.

(** ** The demonstrated values *)
Lemma power_derive lam bet T : 0 < T -> is_derive (fun t => lam * Rpower t bet) T (lam * bet * Rpower T (bet - 1)).
Proof.
  intros HT. unfold Rpower. auto_derive; [exact HT|]. unfold Rminus. rewrite Rmult_plus_distr_r, exp_plus.
  replace (- (1) * ln T) with (- ln T) by ring. rewrite exp_Ropp, exp_ln by exact HT. field. lra.
Qed.
Lemma Rpower_pred T b : 0 < T -> Rpower T (b - 1) = Rpower T b / T.
Proof. intros H. unfold Rminus. rewrite Rpower_plus. replace (- (1)) with (Ropp 1) by reflexivity. rewrite Rpower_Ropp, Rpower_1 by exact H. reflexivity. Qed.
Lemma Rpower_succ T b : 0 < T -> Rpower T (1 - b) = T / Rpower T b.
Proof. intros H. unfold Rminus. rewrite Rpower_plus, Rpower_1, Rpower_Ropp by exact H. reflexivity. Qed.

Lemma crow_demo l c : crow_amsaa l = Ok (Some c) ->
  demonstrates (fun t => Lambda c * Rpower t (Beta c)) (rmax l) (DMTBF_C c) (DMTBF_I c) (DFI_C c) (DFI_I c) /\
  0 < Beta c /\ 0 < Lambda c /\ growth_rate c = 1 - Beta c /\ 0 < rmax l /\ Lambda c * Rpower (rmax l) (Beta c) = INR (length l).
Proof.
  intros H. pose proof (crow_mle _ _ H) as (Hb & Hl & _). pose proof (crow_full _ _ H) as (HN & _ & _).
  apply crow_inv in H as (HF & Hne & [[_ E]|(Hd & c' & E & HB & HL & HG & HI & HFI & HC & HFC)]); [discriminate|]. injection E as <-.
  assert (0 < rmax l) as HT. { rewrite Forall_forall in HF. apply HF. now apply rmax_in. }
  pose proof (exp_pos (Beta c * ln (rmax l))) as HE. fold (Rpower (rmax l) (Beta c)) in HE.
  assert (0 < Rpower (rmax l) (Beta c - 1)) as HE' by apply exp_pos.
  assert (0 < Lambda c * Beta c * Rpower (rmax l) (Beta c - 1)) as HQ by (repeat apply Rmult_lt_0_compat; auto; apply exp_pos).
  assert (DFI_I c = Lambda c * Beta c * Rpower (rmax l) (Beta c - 1)) as EI by (rewrite HFI, HI; field; repeat split; lra).
  assert (DMTBF_C c = rmax l / (Lambda c * Rpower (rmax l) (Beta c))) as EC by (rewrite HC, Rpower_succ by exact HT; field; repeat split; lra).
  split; [|auto]. split; [|split; [|split; [|split]]].
  - rewrite HFC, EC. field. repeat split; lra.
  - exact EC.
  - rewrite EI. now apply power_derive.
  - rewrite EI. exact HQ.
  - rewrite EI, HI. field. repeat split; lra.
Qed.

Lemma duane_demo T z0 z1 : 0 < T -> z0 < 1 -> let d := duane_model T z0 z1 in
  demonstrates (fun t => t / (1 / A d * Rpower t (Alpha d))) T (d_DMTBF_C d) (d_DMTBF_I d) (d_DFI_C d) (d_DFI_I d).
Proof.
  intros HT Hz d. cbn [d duane_model A Alpha d_DMTBF_C d_DMTBF_I d_DFI_C d_DFI_I].
  pose proof (exp_pos z1) as Hb. pose proof (exp_pos (z0 * ln T)) as HE. fold (Rpower T z0) in HE.
  assert (0 < exp z1 * Rpower T z0) as HQ by (now apply Rmult_lt_0_compat).
  assert (0 < (1 - z0) * (1 / (exp z1 * Rpower T z0))) as HI by (apply Rmult_lt_0_compat; [lra|apply Rdiv_lt_0_compat; lra]).
  split; [|split; [|split; [|split]]].
  - field. repeat split; lra.
  - field. repeat split; lra.
  - apply (is_derive_ext_loc (fun t => (/ exp z1) * Rpower t (1 - z0))).
    { exists (mkposreal T HT). intros t Ht. assert (0 < t) as Htp by (unfold ball in Ht; simpl in Ht; unfold AbsRing_ball, abs, minus, plus, opp in Ht; simpl in Ht; apply Rabs_def2 in Ht; lra).
      rewrite Rpower_succ by exact Htp. pose proof (exp_pos (z0 * ln t)). fold (Rpower t z0) in *. as_R. field. split; lra. }
    replace ((1 - z0) * (1 / (exp z1 * Rpower T z0))) with (/ exp z1 * (1 - z0) * Rpower T (1 - z0 - 1)); [now apply power_derive|].
    rewrite Rpower_pred, Rpower_succ by exact HT. field. repeat split; lra.
  - exact HI.
  - field. repeat split; try lra.
Qed.
