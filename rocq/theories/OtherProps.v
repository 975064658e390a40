(** Property theorems: C75, C76, C100-C103. *)
From Coquelicot Require Import Coquelicot.
From Coq Require Import String.
From Coq Require Import List Arith Reals Lra Lia Bool NArith ZArith Permutation Sorted.
From Verif Require Import Base RealFacts Gauss GaussConv Ext RList ConvertModel RepairModel RepairProofs TestingModel TestingProofs DistModel DistSpec DistProofs DistProofs2 DistProofs3 DistProofs4 CombModel CombProofs CombProofs2 SelModel SelProofs RegProofs CIModel CIProofs PoFProofs2 PlotProofs OtherModel OtherSpec OtherProofs OtherProofs2 OtherProofs3.
Import ListNotations.
Open Scope R_scope.

Local Lemma okinj {A} (x y : A) : Ok x = Ok y -> x = y.
Proof. now intros [= ->]. Qed.

(** ** C75: stress_strength_normal is the probability that the stress exceeds the strength. *)
Theorem C75_probability stress strength v : valid stress -> valid strength -> stress_strength_normal stress strength = Ok v ->
  probability_exceeds (sf stress) (fun x => real_of (pdf strength x)) v.
Proof.
  intros V1 V2 H. destruct stress as [|m1 s1| | | | | |], strength as [|m2 s2| | | | | |]; try discriminate. injection H as <-. apply (ss_improper m1 s1 m2 s2 V1 V2).
Qed.
Print Assumptions C75_probability.
Example C75_ex : stress_strength_normal (Normal 20 6) (Normal 40 7) = Ok (Phi (- (40 - 20) / Rpower (7 ^ 2 + 6 ^ 2) (1 / 2))) /\ valid (Normal 20 6) /\ valid (Normal 40 7).
Proof. repeat split; simpl; lra. Qed.

Lemma ss_sd_pos s1 s2 : 0 < Rpower (s2 ^ 2 + s1 ^ 2) (1 / 2).
Proof. apply Rpower_gt_0. Qed.
(** Exchanging the two gives the complementary probability. *)
Theorem C75_complement X Y p q : stress_strength_normal X Y = Ok p -> stress_strength_normal Y X = Ok q -> p + q = 1 /\ 0 < p < 1.
Proof.
  destruct X as [|m1 s1| | | | | |], Y as [|m2 s2| | | | | |]; try discriminate. cbn [stress_strength_normal]. intros H K. apply okinj in H, K. subst p q.
  replace (s1 ^ 2 + s2 ^ 2) with (s2 ^ 2 + s1 ^ 2) by ring. pose proof (ss_sd_pos s1 s2).
  replace (- (m1 - m2) / Rpower (s2 ^ 2 + s1 ^ 2) (1 / 2)) with (- (- (m2 - m1) / Rpower (s2 ^ 2 + s1 ^ 2) (1 / 2))) by (field; lra).
  rewrite Phi_sym. split; [ring|]. split; [apply Phi_gt_0|apply Phi_lt_1].
Qed.
Print Assumptions C75_complement.
(** A larger mean stress raises it, a larger mean strength lowers it; it is one half exactly if the means agree. *)
Theorem C75_monotone m1 s1 m2 s2 m1' m2' v v' : m1 <= m1' -> m2' <= m2 -> (m1 < m1' \/ m2' < m2) ->
  stress_strength_normal (Normal m1 s1) (Normal m2 s2) = Ok v -> stress_strength_normal (Normal m1' s1) (Normal m2' s2) = Ok v' -> v < v'.
Proof.
  intros H1 H2 H3 E E'. injection E as <-. injection E' as <-. apply Phi_increasing. pose proof (ss_sd_pos s1 s2). apply Rmult_lt_compat_r; [now apply Rinv_0_lt_compat|lra].
Qed.
Print Assumptions C75_monotone.
Theorem C75_half m1 s1 m2 s2 v : stress_strength_normal (Normal m1 s1) (Normal m2 s2) = Ok v -> (v = 1 / 2 <-> m1 = m2) /\ (v < 1 / 2 <-> m1 < m2).
Proof.
  intros E. injection E as <-. pose proof (ss_sd_pos s1 s2) as P. set (r := Rpower _ _) in *. rewrite <- Phi_0. rewrite Phi_lt_iff.
  assert (- (m2 - m1) / r = (m1 - m2) / r) as -> by (field; lra). assert (0 < / r) by now apply Rinv_0_lt_compat. split; split.
  - intros E. assert ((m1 - m2) / r = 0) as Z. { rewrite <- (norm_ppf_Phi ((m1 - m2) / r)), E. apply norm_ppf_Phi. } unfold Rdiv in Z. apply Rmult_integral in Z. lra.
  - intros ->. f_equal. unfold Rdiv. rewrite Rminus_diag_eq by reflexivity. ring.
  - intros L. unfold Rdiv in L. nra.
  - intros L. unfold Rdiv. nra.
Qed.
Print Assumptions C75_half.
Theorem C75_errors stress strength : (exists v, stress_strength_normal stress strength = Ok v) <->
  (exists m1 s1 m2 s2, stress = Normal m1 s1 /\ strength = Normal m2 s2).
Proof.
  split.
  - intros (v & H). destruct stress as [|m1 s1| | | | | |], strength as [|m2 s2| | | | | |]; try discriminate. now exists m1, s1, m2, s2.
  - intros (m1 & s1 & m2 & s2 & -> & ->). eexists. reflexivity.
Qed.
Print Assumptions C75_errors.

(** ** C100: stress_strength integrates numerically. *)

(** For two normal distributions it is within an explicit bound of the exact probability. *)
Theorem C100_accuracy m1 s1 m2 s2 w : 0 < s1 -> 0 < s2 -> stress_strength_normal (Normal m1 s1) (Normal m2 s2) = Ok w ->
  exists v, stress_strength (Normal m1 s1) (Normal m2 s2) = Ok (Fin v) /\
  Rabs (v - w) <= 2 / 10 ^ 8 + (1 / (2 * s2 ^ 2) + 1 / (2 * s1 * s2) + 1 / (4 * s1 ^ 2)) / s2 * (Rabs (m1 - m2) + 12 * Rmax s1 s2) ^ 3 / (12 * 999999 ^ 2).
Proof. intros S1 S2 H. injection H as <-. apply (ss_normal_value m1 s1 m2 s2 S1 S2). Qed.
Print Assumptions C100_accuracy.
(** For instance within 1e-7 for the example of the documentation. *)
Example C100_accuracy_ex : exists v, stress_strength (Normal 20 6) (Normal 40 7) = Ok (Fin v) /\ Rabs (v - Phi (- (40 - 20) / Rpower (7 ^ 2 + 6 ^ 2) (1 / 2))) <= 1 / 10 ^ 7.
Proof.
  destruct (C100_accuracy 20 6 40 7 _ ltac:(lra) ltac:(lra) eq_refl) as (v & E & B). exists v. split; [exact E|]. eapply Rle_trans; [exact B|].
  rewrite Rmax_right by lra. replace (Rabs (20 - 40)) with 20 by (rewrite Rabs_left; lra). lra.
Qed.

(** It is never negative. *)
Theorem C100_nonneg stress strength v : valid stress -> valid strength -> stress_strength stress strength = Ok (Fin v) -> 0 <= v.
Proof. apply stress_strength_nonneg. Qed.
Print Assumptions C100_nonneg.

(** It returns a value exactly if the extreme quantiles of both distributions are in the domain of both. *)
Theorem C100_domain_partial stress strength : valid stress -> valid strength ->
  (exists v, stress_strength stress strength = Ok v) <->
  forall d x, In d [stress; strength] -> In x [Rmin (ppf stress (/ 10 ^ 8)) (ppf strength (/ 10 ^ 8)); Rmax (ppf stress (1 - / 10 ^ 8)) (ppf strength (1 - / 10 ^ 8))] -> accepts d x.
Proof.
  intros V1 V2. rewrite stress_strength_form. pose proof (ss_accepts stress strength stress V1 V2) as A1. pose proof (ss_accepts stress strength strength V1 V2) as A2.
  unfold ss_lo, ss_hi in A1, A2. rewrite (Rmax_comm (ppf strength _)) in A1, A2. split.
  - intros (v & H). destruct (array_ok strength _) eqn:E2; [|discriminate]. destruct (array_ok stress _) eqn:E1; [|discriminate]. cbn [andb] in H.
    destruct (proj1 A1 eq_refl), (proj1 A2 eq_refl). intros d x [<-|[<-|[]]] [<-|[<-|[]]]; assumption.
  - intros H. rewrite (proj2 A1), (proj2 A2); [eexists; reflexivity| |]; split; apply H; simpl; auto.
Qed.
Print Assumptions C100_domain_partial.
(** So ordinary pairs are rejected with an error about xvals the user never gave. *)
Theorem C100_domain_refuted : exists stress strength, valid stress /\ valid strength /\ stress_strength stress strength = Err ValueError.
Proof.
  exists (Normal 40 10), (Weibull 100 2 0). repeat split; simpl; try lra.
  destruct (stress_strength (Normal 40 10) (Weibull 100 2 0)) as [v|e] eqn:E.
  - exfalso. destruct (C100_domain_partial (Normal 40 10) (Weibull 100 2 0)) as [K _]; [simpl; lra|simpl; lra|].
    specialize (K (ex_intro _ v E) (Weibull 100 2 0) (Rmin (ppf (Normal 40 10) (/ 10 ^ 8)) (ppf (Weibull 100 2 0) (/ 10 ^ 8)))).
    assert (0 <= Rmin (ppf (Normal 40 10) (/ 10 ^ 8)) (ppf (Weibull 100 2 0) (/ 10 ^ 8))) as C by (apply K; simpl; auto).
    pose proof (Rmin_l (ppf (Normal 40 10) (/ 10 ^ 8)) (ppf (Weibull 100 2 0) (/ 10 ^ 8))) as L. pose proof ppf_low. cbn [ppf] in *. lra.
  - rewrite stress_strength_form in E. destruct (_ && _); [discriminate|]. now injection E as <-.
Qed.
Print Assumptions C100_domain_refuted.
Example C100_domain_ex : exists v, stress_strength (Weibull 40 3 10) (Exponential (1 / 100) 0) = Ok v.
Proof.
  apply C100_domain_partial; [simpl; lra|simpl; lra|]. assert (forall d, valid d -> supp_lo d = Finite (location d) -> 0 <= location d -> forall q, 0 < q < 1 -> 0 <= ppf d q) as P.
  { intros d Vd S L q Hq. destruct (F_ppf d (all_facts d Vd) q Hq) as [[H _] _]. rewrite S in H. simpl in H. lra. }
  assert (0 < / 10 ^ 8 < 1) as Q. { split; [apply Rinv_0_lt_compat; lra|]. apply Rlt_le_trans with (/ 1); [apply Rinv_lt_contravar; lra|lra]. }
  assert (forall q, 0 < q < 1 -> 0 <= ppf (Weibull 40 3 10) q /\ 0 <= ppf (Exponential (1 / 100) 0) q) as B. { intros q Hq. split; apply P; auto; simpl; lra. }
  pose proof (B (/ 10 ^ 8) Q). pose proof (B (1 - / 10 ^ 8) ltac:(lra)). set (x1 := ppf (Weibull 40 3 10) (/ 10 ^ 8)) in *. set (x2 := ppf (Exponential _ _) (/ 10 ^ 8)) in *. set (x3 := ppf (Weibull _ _ _) (1 - _)) in *. set (x4 := ppf (Exponential _ _) (1 - _)) in *. clearbody x1 x2 x3 x4.
  assert (0 <= Rmin x1 x2) by (apply Rmin_glb; lra). assert (0 <= Rmax x3 x4) by (eapply Rle_trans; [|apply Rmax_l]; lra).
  intros d x [<-|[<-|[]]] [<-|[<-|[]]]; simpl; assumption.
Qed.

(** ** C76: make_right_censored_data. *)
Theorem C76_threshold shuffle rand data t failures rc : fst (make_right_censored_data shuffle rand data (Some t) None) = Ok (failures, rc) ->
  exists o, Permutation (contents data) (failures ++ o) /\ Forall (fun x => x <= t) failures /\ Forall (fun x => t < x) o /\ rc = map (fun _ => t) o.
Proof.
  cbn [make_right_censored_data fst]. intros H. injection H as <- <-. exists (filter (fun v => Rltb' t v) (contents data)). repeat split.
  - apply filter_split. intros x. unfold Rltb', Rleb. destruct (Rlt_dec t x), (Rle_dec x t); try reflexivity; lra.
  - apply Forall_forall. intros x Hx. apply filter_In in Hx as [_ Hx]. unfold Rleb in Hx. destruct (Rle_dec x t); [assumption|discriminate].
  - apply Forall_forall. intros x Hx. apply filter_In in Hx as [_ Hx]. unfold Rltb' in Hx. destruct (Rlt_dec t x); [assumption|discriminate].
Qed.
Print Assumptions C76_threshold.
Example C76_threshold_ex : fst (make_right_censored_data (fun l => l) (fun _ => []) (PyList [1; 5; 3]) (Some 3) None) = Ok ([1; 3], [3]).
Proof. cbn. unfold Rleb, Rltb'. repeat match goal with |- context [Rle_dec ?a ?b] => destruct (Rle_dec a b); try lra | |- context [Rlt_dec ?a ?b] => destruct (Rlt_dec a b); try lra end. reflexivity. Qed.

Theorem C76_fraction shuffle rand data fraction failures rc :
  (forall l, Permutation l (shuffle l)) -> (forall k, length (rand k) = k /\ unit_interval (rand k)) ->
  fst (make_right_censored_data shuffle rand data None fraction) = Ok (failures, rc) ->
  let f := match fraction with Some f => f | None => 1 / 2 end in
  0 <= f < 1 /\
  exists o, Permutation (contents data) (failures ++ o) /\ Forall2 censored_before o rc /\
            INR (length rc) <= INR (length (contents data)) * f < INR (length rc) + 1.
Proof.
  intros Hs Hr H f. assert (match fraction with Some f => Some f | None => Some (1 / 2) end = Some f) as Ef by (destruct fraction; reflexivity).
  unfold make_right_censored_data in H. assert (match fraction with Some _ => fraction | None => Some (1 / 2) end = Some f) as Ef' by (destruct fraction; reflexivity). rewrite Ef' in H.
  destruct (Rltb' f 0 || Rleb 1 f) eqn:Eb; [discriminate|]. apply orb_false_iff in Eb as [B1 B2]. assert (0 <= f < 1) as Hf. { unfold Rltb', Rleb in B1, B2. destruct (Rlt_dec f 0); [discriminate|]. destruct (Rle_dec 1 f); [discriminate|lra]. }
  split; [exact Hf|]. cbn [fst] in H. injection H as E1 E2. now apply (fraction_result shuffle rand data f failures rc).
Qed.
Print Assumptions C76_fraction.
Example C76_fraction_ex : exists failures rc, fst (make_right_censored_data (fun l => rev l) (fun k => repeat (1 / 4) k) (PyList [1; 5; 3; 8]) None (Some (1 / 2))) = Ok (failures, rc) /\
  (forall l : list R, Permutation l (rev l)) /\ (forall k, length (repeat (1 / 4) k) = k /\ unit_interval (repeat (1 / 4) k)).
Proof.
  unfold make_right_censored_data. unfold Rltb', Rleb. destruct (Rlt_dec (1 / 2) 0); [lra|]. destruct (Rle_dec 1 (1 / 2)); [lra|]. cbn [orb fst]. eexists _, _. split; [reflexivity|].
  split; [apply Permutation_rev|]. intros k. split; [apply repeat_length|]. apply Forall_forall. intros u Hu. apply repeat_spec in Hu. subst. lra.
Qed.
(** Non-negative data: a censored item is censored no later than it would have failed, and no earlier than 0. *)
Theorem C76_censored_earlier o rc : Forall (fun x => 0 <= x) o -> Forall2 censored_before o rc -> Forall2 (fun x c => 0 <= c <= x) o rc.
Proof. intros H F. induction F as [|x c o rc (u & Hu & ->) F IH]; constructor; inversion_clear H; [nra|auto]. Qed.
Print Assumptions C76_censored_earlier.
Theorem C76_errors shuffle rand data threshold fraction :
  (exists r, fst (make_right_censored_data shuffle rand data threshold fraction) = Ok r) <->
  match threshold, fraction with Some _, Some _ => False | None, Some f => 0 <= f < 1 | _, None => True end.
Proof.
  unfold make_right_censored_data. destruct threshold as [t|], fraction as [f|]; cbn [fst].
  - split; [intros (r & H); discriminate|contradiction].
  - split; [trivial|]. intros _. eexists. reflexivity.
  - unfold Rltb', Rleb. destruct (Rlt_dec f 0), (Rle_dec 1 f); cbn [orb fst]; (split; [intros (v & H); try discriminate; lra|intros H; try lra; eexists; reflexivity]).
  - unfold Rltb', Rleb. destruct (Rlt_dec (1 / 2) 0); [lra|]. destruct (Rle_dec 1 (1 / 2)); [lra|]. cbn [orb fst]. split; [trivial|]. intros _. eexists. reflexivity.
Qed.
Print Assumptions C76_errors.
(** The caller's data is unchanged: false for an array without threshold, which is shuffled in place, even if the call fails. *)
Theorem C76_caller_refuted : exists shuffle rand data fraction, (forall l, Permutation l (shuffle l)) /\ (forall k, length (rand k) = k /\ unit_interval (rand k)) /\
  fst (make_right_censored_data shuffle rand data None (Some fraction)) = Err ValueError /\
  snd (make_right_censored_data shuffle rand data None (Some fraction)) <> data.
Proof.
  exists (@rev R), (fun k => repeat (1 / 4) k), (NdArray [1; 2]), 2. split; [apply Permutation_rev|]. split.
  { intros k. split; [apply repeat_length|]. apply Forall_forall. intros u Hu. apply repeat_spec in Hu. subst. lra. }
  unfold make_right_censored_data. unfold Rltb', Rleb. destruct (Rlt_dec 2 0); [lra|]. destruct (Rle_dec 1 2); [|lra]. cbn [orb fst snd contents rev app]. split; [reflexivity|]. intros E. injection E as E _. lra.
Qed.
Print Assumptions C76_caller_refuted.
Theorem C76_caller_partial shuffle rand data threshold fraction : (forall l, Permutation l (shuffle l)) ->
  let after := snd (make_right_censored_data shuffle rand data threshold fraction) in
  Permutation (contents data) (contents after) /\ ((exists l, data = PyList l) \/ threshold <> None -> after = data).
Proof.
  intros Hs after. unfold after, make_right_censored_data. destruct threshold as [t|].
  - destruct fraction; cbn [snd]; auto.
  - assert (exists f, match fraction with Some _ => fraction | None => Some (1 / 2) end = Some f) as (f & ->) by (destruct fraction; eauto).
    destruct (Rltb' f 0 || Rleb 1 f); cbn [snd]; (split; [destruct data; cbn [contents]; auto|intros [(l & ->)|C]; [reflexivity|congruence]]).
Qed.
Print Assumptions C76_caller_partial.

(** ** C101: similar_distributions. *)
Lemma flat_map_ext_in' {A B} (f g : A -> list B) l : (forall x, In x l -> f x = g x) -> flat_map f l = flat_map g l.
Proof. induction l as [|x l IH]; intros H; [reflexivity|]. cbn [flat_map]. rewrite (H x) by now left. f_equal. apply IH. intros y Hy. apply H. now right. Qed.
Lemma Forall2_len {A B} (P : A -> B -> Prop) l m : Forall2 P l m -> length l = length m.
Proof. induction 1; cbn [length]; congruence. Qed.
Lemma strongly_sorted_nth l : StronglySorted Rlt l -> forall m n, (m < n < length l)%nat -> nth m l 0 < nth n l 0.
Proof.
  induction 1 as [|x l S IH F]; intros m n H; [cbn in H; lia|]. cbn [length] in H. destruct n as [|n]; [lia|]. destruct m as [|m]; cbn [nth].
  - rewrite Forall_forall in F. apply F. apply nth_In. lia.
  - apply IH. lia.
Qed.
Lemma filter_all {A} (f : A -> bool) l : (forall x, In x l -> f x = true) -> filter f l = l.
Proof. induction l as [|x l IH]; intros H; [reflexivity|]. cbn [filter]. rewrite (H x) by now left. f_equal. apply IH. intros y Hy. apply H. now right. Qed.
Theorem C101_results_refuted : exists d include_location_shifted k ranked fitted objs best,
  similar_distributions d include_location_shifted k ranked fitted = Ok (objs, best) /\
  (forall l, NoDup (ranked l)) /\
  objs <> flat_map (listed (fitted (similar_filtered d)) include_location_shifted) (filter (fun x => negb (dname_eqb x (name2 d))) (ranked (similar_filtered d))).
Proof.
  exists (Exponential 1 0), true, 3%Z, (fun _ => [D_Exponential_2P]), (fun _ n => match n with D_Exponential_1P => {| par_1 := 1; par_2 := 0; par_gamma := 0 |} | _ => {| par_1 := 2; par_2 := 0; par_gamma := 1 |} end).
  exists [Exponential 1 1], (Exponential 1 1). split; [|split].
  - unfold similar_distributions. cbn [Z.ltb Z.compare Pos.compare Pos.compare_cont].
    assert (length (similar_filtered (Exponential 1 0)) = 698%nat) as L.
    { unfold similar_filtered, similar_samples. rewrite filter_all; [now rewrite map_length, linspace_length|].
      intros x Hx. apply in_map_iff in Hx as (q & <- & Hq). unfold Rltb'. destruct (Rlt_dec 0 _) as [|N]; [reflexivity|]. exfalso. apply N. clear N.
      assert (1 / 1000 <= q <= 999 / 1000) as B.
      { unfold linspace in Hq. apply in_map_iff in Hq as (i & <- & Hi). apply in_seq in Hi. replace (INR (698 - 1)) with 697 by (simpl; lra). pose proof (pos_INR i). assert (INR i <= INR 697) by (apply le_INR; lia). replace (INR 697) with 697 in * by (simpl; lra). lra. }
      destruct (F_ppf _ (all_facts (Exponential 1 0) ltac:(simpl; lra)) q ltac:(lra)) as [[H _] _]. simpl in H. exact H. }
    rewrite L. cbn [Nat.ltb Nat.leb]. cbn [name2]. destruct (Req_EM_T 0 0); [|lra]. cbn [remove_first dname_eqb flat_map ranked_object app par_1 par_gamma]. destruct (Req_EM_T 1 0); [lra|]. reflexivity.
  - intros _. constructor; [intros []|constructor].
  - cbn [name2]. destruct (Req_EM_T 0 0); [|lra]. cbn [filter dname_eqb negb flat_map app]. unfold listed. cbn [location_shifted negb orb andb own_object par_1 par_gamma]. destruct (Req_EM_T 1 0); [lra|]. cbn [app]. intros E. injection E as E. lra.
Qed.
Print Assumptions C101_results_refuted.
(** Otherwise the results are the fitted distributions with their own parameters in the order of the ranking,
    without the kind of the input. *)
Theorem C101_results_partial d include_location_shifted k ranked fitted objs best :
  similar_distributions d include_location_shifted k ranked fitted = Ok (objs, best) ->
  NoDup (ranked (similar_filtered d)) ->
  include_location_shifted = false \/ ~ In D_Exponential_2P (ranked (similar_filtered d)) ->
  objs = flat_map (listed (fitted (similar_filtered d)) include_location_shifted) (filter (fun x => negb (dname_eqb x (name2 d))) (ranked (similar_filtered d))) /\
  hd_error objs = Some best.
Proof.
  intros H N Ne. apply similar_inv in H as (-> & Hb & _). split; [|exact Hb]. rewrite <- remove_first_filter by exact N.
  rewrite remove_first_filter by exact N. apply flat_map_ext_in'. intros x Hx. apply filter_In in Hx as [Hx _]. apply ranked_listed. intros ->. tauto.
Qed.
Print Assumptions C101_results_partial.
(** The sample that is fitted and ranked: 698 positive values, of which the share up to any time is the probability
    of failing by then to within 0.002, between the extreme thousandths. *)
Lemma count_below x n : 0 <= x -> let c := length (filter (fun i => Rleb (INR i) x) (seq 0 n)) in INR c <= x + 1 /\ (x < INR c \/ c = n) /\ (c <= n)%nat.
Proof.
  intros Hx. induction n as [|n IH]; [cbn; split; [lra|]; split; [now right|lia]|]. cbv zeta in *. rewrite seq_S, filter_app, app_length. rewrite Nat.add_0_l. cbn [filter]. set (c := length (filter _ (seq 0 n))) in *. destruct IH as (A & B & C). clearbody c.
  unfold Rleb. destruct (Rle_dec (INR n) x) as [L|L]; cbn [length].
  - assert (c = n) as E. { destruct B as [B|B]; [|exact B]. exfalso. apply le_INR in C. lra. } rewrite E, Nat.add_1_r, S_INR. split; [lra|]. split; [now right|lia].
  - rewrite Nat.add_0_r. split; [exact A|]. split; [|lia]. left. destruct B as [B|B]; [exact B|]. rewrite B. lra.
Qed.
Lemma filter_map_length {A B} (f : A -> B) (p : B -> bool) l : length (filter p (map f l)) = length (filter (fun x => p (f x)) l).
Proof. induction l as [|x l IH]; [reflexivity|]. cbn [map filter]. destruct (p (f x)); cbn [length]; now rewrite IH. Qed.
Theorem C101_samples d include_location_shifted k ranked fitted objs best : valid d -> (forall q, 0 < q < 1 -> 0 < ppf d q) ->
  similar_distributions d include_location_shifted k ranked fitted = Ok (objs, best) ->
  exists L, length L = N.to_nat 698 /\ (forall t, 1 / 1000 <= cdf d t <= 999 / 1000 -> Rabs (INR (length (filter (fun v => Rleb v t) L)) / 698 - cdf d t) <= 1 / 500) /\
    (NoDup (ranked L) -> include_location_shifted = false \/ ~ In D_Exponential_2P (ranked L) ->
     objs = flat_map (listed (fitted L) include_location_shifted) (filter (fun x => negb (dname_eqb x (name2 d))) (ranked L))).
Proof.
  intros V HP H. exists (similar_filtered d). assert (INR (698 - 1) = 697) as E697. { change (698 - 1)%nat with (N.to_nat 697). rewrite INR_IZR_INZ. now rewrite N_nat_Z. }
  assert (forall q, In q (linspace (1 / 1000) (999 / 1000) 698) -> 0 < q < 1) as HQ. 
  { intros q Hq. unfold linspace in Hq. apply in_map_iff in Hq. destruct Hq as (i & <- & Hi). apply in_seq in Hi. rewrite E697. pose proof (pos_INR i). assert (INR i <= 697) by (rewrite <- E697; apply le_INR; lia). lra. }
  assert (similar_filtered d = similar_samples d) as ES. { unfold similar_filtered. apply filter_all. intros x Hx. unfold similar_samples in Hx. apply in_map_iff in Hx. destruct Hx as (q & <- & Hq). unfold Rltb'. destruct (Rlt_dec 0 (ppf d q)) as [|Q]; [reflexivity|]. exfalso. apply Q, HP, HQ, Hq. }
  split; [rewrite ES; unfold similar_samples; rewrite map_length, linspace_length; reflexivity|]. split.
  - intros t Ht. rewrite ES. unfold similar_samples, linspace. rewrite E697, map_map, filter_map_length.
    set (x := (cdf d t - 1 / 1000) / ((999 / 1000 - 1 / 1000) / 697)). assert (0 <= x) as Hx by (unfold x; apply Rdiv_le_0_compat; lra).
    assert (filter (fun i => Rleb (ppf d (1 / 1000 + INR i * ((999 / 1000 - 1 / 1000) / 697))) t) (seq 0 698) = filter (fun i => Rleb (INR i) x) (seq 0 698)) as ->.
    { apply filter_ext_in. intros i Hi. apply in_seq in Hi. assert (INR i <= 697) as HI. { rewrite <- E697. apply le_INR. lia. } pose proof (pos_INR i) as HI0. set (q := 1 / 1000 + _).
      assert (0 < q < 1) as Hq by (unfold q; lra). destruct (F_ppf _ (all_facts d V) q Hq) as (Hin & EQ).
      assert (ppf d q <= t <-> INR i <= x) as HE.
      { transitivity (q <= cdf d t).
        - split; [intros L; rewrite <- EQ; now apply cdf_incr|]. intros L. apply Rnot_lt_le. intros C. 
          assert (inside d t) as It. { split; apply Rbar_not_le_lt; intros Q; [rewrite (F_low _ (all_facts d V) t Q) in Ht|rewrite (F_high _ (all_facts d V) t Q) in Ht]; lra. }
          pose proof (cdf_strict d V _ _ It Hin C). lra.
        - unfold q, x. split; intros L; [apply Rle_div_r|apply Rle_div_r in L]; lra. }
      unfold Rleb. destruct (Rle_dec (ppf d q) t), (Rle_dec (INR i) x); tauto. }
    pose proof (count_below x 698 Hx) as (A & B & C). set (c := length (filter _ (seq 0 698))) in *. clearbody c.
    assert (x = (cdf d t - 1 / 1000) * (697000 / 998)) as EX by (unfold x; field). assert (INR 698 = 698) as E698. { change 698%nat with (N.to_nat 698). rewrite INR_IZR_INZ. now rewrite N_nat_Z. }
    assert (INR c / 698 = INR c * / 698) as -> by reflexivity. apply Rabs_le. destruct B as [B|B]; [split; lra|]. rewrite B, E698 in *. split; lra.
  - intros N Ne. exact (proj1 (C101_results_partial _ _ _ _ _ _ _ H N Ne)).
Qed.
Print Assumptions C101_samples.
(** No result has the kind of the input. *)
Theorem C101_not_same_kind d include_location_shifted k ranked fitted objs best x :
  similar_distributions d include_location_shifted k ranked fitted = Ok (objs, best) -> NoDup (ranked (similar_filtered d)) -> In x objs -> name2 x <> name2 d.
Proof.
  intros H N Hx. apply similar_inv in H as (-> & _). apply in_flat_map in Hx as (n & Hn & Hx). apply ranked_name in Hx. rewrite Hx. intros ->. revert Hn. now apply remove_first_notin.
Qed.
Print Assumptions C101_not_same_kind.

(** ** C103: the shading of histogram. *)
Theorem C103_shading data edges w white i : histogram_white data edges w = Ok white -> StronglySorted Rlt edges -> (S i < length edges)%nat ->
  (w <= nth i edges 0 -> In i white) /\ (nth (S i) edges 0 <= w -> ~ In i white) /\
  (nth i edges 0 < w < nth (S i) edges 0 -> (In i white <-> w - nth i edges 0 <= nth (S i) edges 0 - w)).
Proof.
  intros H Sr Hi. apply histogram_inv in H as (_ & j & Ej & ->). apply argmin_first in Ej as [Lj Hj]. rewrite map_length in *.
  assert (forall m, (m < length edges)%nat -> nth m (map (fun e => Rabs (e - w)) edges) 0 = Rabs (nth m edges 0 - w)) as Nm.
  { intros m Hm. rewrite (nth_indep _ 0 ((fun e => Rabs (e - w)) 0)) by now rewrite map_length. apply (map_nth (fun e => Rabs (e - w))). }
  assert (forall m n, (m < n < length edges)%nat -> nth m edges 0 < nth n edges 0) as Inc by (intros; now apply strongly_sorted_nth).
  assert (In i (seq j (length edges - 1 - j)) <-> (j <= i)%nat) as In'. { rewrite in_seq. lia. }
  rewrite !In'. clear In'.
  assert (forall m, (m < length edges)%nat -> Rabs (nth j edges 0 - w) <= Rabs (nth m edges 0 - w) /\ ((m < j)%nat -> Rabs (nth j edges 0 - w) < Rabs (nth m edges 0 - w))) as Best.
  { intros m Hm. specialize (Hj m Hm). now rewrite !Nm in Hj by assumption. }
  split; [|split].
  - intros Hw. apply Nat.nlt_ge. intros C. pose proof (Inc i j (conj C Lj)). destruct (Best i ltac:(lia)) as [B _]. rewrite !Rabs_right in B by lra. lra.
  - intros Hw C. destruct (Best (S i) Hi) as [B _]. pose proof (Inc i (S i) ltac:(lia)). assert (nth j edges 0 <= nth i edges 0) by (destruct (Nat.eq_dec j i) as [->|]; [lra|]; left; apply Inc; lia).
    rewrite (Rabs_left (nth j edges 0 - w)), (Rabs_left1 (nth (S i) edges 0 - w)) in B by lra. lra.
  - intros [W1 W2]. destruct (Best (S i) Hi) as [B1 B2]. destruct (Best i ltac:(lia)) as [B3 B4]. rewrite (Rabs_right (nth (S i) edges 0 - w)) in B1, B2 by lra. rewrite (Rabs_left (nth i edges 0 - w)) in B3, B4 by lra. split.
    + intros C. assert (nth j edges 0 <= nth i edges 0) by (destruct (Nat.eq_dec j i) as [->|]; [lra|]; left; apply Inc; lia). rewrite (Rabs_left (nth j edges 0 - w)) in B1 by lra. lra.
    + intros C. apply Nat.nlt_ge. intros D. specialize (B4 D). assert (nth (S i) edges 0 <= nth j edges 0) by (destruct (Nat.eq_dec j (S i)) as [->|]; [lra|]; left; apply Inc; lia). rewrite (Rabs_right (nth j edges 0 - w)) in B4 by lra. lra.
Qed.
Print Assumptions C103_shading.
Theorem C103_errors data edges w : edges <> [] -> data <> [] -> (histogram_white data edges w = Err ValueError <-> forall x, In x data -> w < x).
Proof.
  intros Ne Nd. unfold histogram_white, Rltb'. destruct (Rlt_dec w (rmin data)) as [L|L].
  - split; [|reflexivity]. intros _ x Hx. pose proof (rmin_le data x Hx). lra.
  - split.
    + intros H. exfalso. destruct edges as [|e r]; [contradiction|]. discriminate.
    + intros H. exfalso. apply L. apply H. now apply rmin_in.
Qed.
Print Assumptions C103_errors.
Example C103_ex : histogram_white [1; 2; 9] [1; 3; 5; 7; 9] (9 / 2) = Ok [2; 3]%nat.
Proof.
  unfold histogram_white, Rltb'. destruct (Rlt_dec (9 / 2) (rmin [1; 2; 9])) as [C|C]. { exfalso. pose proof (rmin_le [1; 2; 9] 1 ltac:(simpl; auto)). lra. }
  cbn [map argmin bind length Nat.sub]. replace (Rabs (1 - 9 / 2)) with (7 / 2) by (rewrite Rabs_left; lra). replace (Rabs (3 - 9 / 2)) with (3 / 2) by (rewrite Rabs_left; lra).
  replace (Rabs (5 - 9 / 2)) with (1 / 2) by (rewrite Rabs_right; lra). replace (Rabs (7 - 9 / 2)) with (5 / 2) by (rewrite Rabs_right; lra). replace (Rabs (9 - 9 / 2)) with (9 / 2) by (rewrite Rabs_right; lra).
  cbn [argmin_from]. destruct (Rlt_dec (3 / 2) (7 / 2)); [|lra]. destruct (Rlt_dec (1 / 2) (3 / 2)); [|lra]. destruct (Rlt_dec (5 / 2) (1 / 2)); [lra|]. destruct (Rlt_dec (9 / 2) (1 / 2)); [lra|]. reflexivity.
Qed.

(** ** C102: make_ALT_data. *)
Theorem C102_levels samples shuffle rand name m stress_1 stress_2 p beta sigma use fraction data ud :
  (forall i l, Permutation l (shuffle i l)) -> (forall i k, length (rand i k) = k /\ unit_interval (rand i k)) -> Forall (fun s => 0 < s) stress_1 ->
  make_ALT_data samples shuffle rand name m stress_1 stress_2 p beta sigma use fraction = Ok (data, ud) ->
  exists levels, length levels = length stress_1 /\ data = level_data (dual_stress m) levels /\
  forall i s1, nth_error stress_1 i = Some s1 -> exists l s2 L d,
    nth_error levels i = Some l /\ (dual_stress m = true -> exists l2, stress_2 = Some l2 /\ nth_error l2 i = Some s2) /\
    life_stress m p s1 s2 L /\ with_life name beta sigma L d /\
    level_of fraction (samples i d) (s1, s2) l /\ Forall (fun x => 0 < x) (samples i d).
Proof.
  intros Hs Hr Pos H. apply make_ALT_inv in H as (Hf & s2 & life & E2 & El & Ed & _).
  destruct (alt_loop_levels (dual_stress m) fraction samples shuffle rand (make_dist name beta sigma) life Hf Hs Hr (combine stress_1 (firstn (length stress_1) s2)) 0 [] data) as (ls & -> & Ll & A).
  { rewrite <- Ed. f_equal. unfold level_data, alt_empty. cbn [flat_map]. destruct (dual_stress m); reflexivity. }
  assert (length stress_1 <= length (firstn (length stress_1) s2))%nat as L2.
  { rewrite firstn_length. destruct (dual_stress m); [destruct E2 as (l & _ & L & ->)|subst s2]; rewrite app_length; lia. }
  exists ls. cbn [app]. split; [rewrite Ll, combine_length; lia|]. split; [reflexivity|].
  intros i s1 Hi. destruct (nth_error_combine_ex stress_1 (firstn (length stress_1) s2) i s1 L2 Hi) as (t & Ht). destruct (A i (s1, t) Ht) as (l & El' & (d & Ed' & Lo & P)). cbn [fst snd Nat.add] in *.
  exists l, t, (life s1 t), d. split; [exact El'|]. split; [|split; [|split; [|split; [exact Lo|exact P]]]].
  - intros D. rewrite D in E2. destruct E2 as (l2 & -> & Le & ->). exists l2. split; [reflexivity|]. apply nth_error_combine in Ht as [_ Ht]. cbn [snd] in Ht. rewrite <- Le, firstn_app, Nat.sub_diag, firstn_O, app_nil_r, firstn_all in Ht. exact Ht.
  - apply (life_model_spec m p life s1 t); [|exact El]. rewrite Forall_forall in Pos. apply Pos. eapply nth_error_In, Hi.
  - now apply make_dist_spec.
Qed.
Print Assumptions C102_levels.

(** The lists are aligned: each failure and each censored time has its stress in the same position; all failures are
    positive; nothing is lost. *)
Lemma flat_repeat_length {A} (f : level -> A) (g : level -> list R) ls : length (flat_map (fun l => repeat_for (f l) (g l)) ls) = length (flat_map g ls).
Proof. induction ls as [|l ls IH]; [reflexivity|]. cbn [flat_map]. rewrite !app_length, IH. unfold repeat_for. now rewrite map_length. Qed.
Theorem C102_aligned samples shuffle rand name m stress_1 stress_2 p beta sigma use fraction data ud n :
  (forall i l, Permutation l (shuffle i l)) -> (forall i k, length (rand i k) = k /\ unit_interval (rand i k)) -> Forall (fun s => 0 < s) stress_1 ->
  (forall i d, length (samples i d) = n) ->
  make_ALT_data samples shuffle rand name m stress_1 stress_2 p beta sigma use fraction = Ok (data, ud) ->
  length (ad_fs1 data) = length (ad_failures data) /\ length (ad_cs1 data) = length (ad_censored data) /\
  length (ad_fs2 data) = (if dual_stress m then length (ad_failures data) else 0)%nat /\ length (ad_cs2 data) = (if dual_stress m then length (ad_censored data) else 0)%nat /\
  (length (ad_failures data) + length (ad_censored data) = n * length stress_1)%nat /\ Forall (fun x => 0 < x) (ad_failures data).
Proof.
  intros Hs Hr Pos Hn H. destruct (C102_levels _ _ _ _ _ _ _ _ _ _ _ _ _ _ Hs Hr Pos H) as (ls & Ll & -> & A). unfold level_data. cbn [ad_failures ad_fs1 ad_fs2 ad_censored ad_cs1 ad_cs2].
  rewrite !flat_repeat_length. assert (forall l, In l ls -> (length (lv_failures l) + length (lv_censored l) = n)%nat /\ Forall (fun x => 0 < x) (lv_failures l)) as B.
  { intros l Hl. apply In_nth_error in Hl as (i & Hi). assert (i < length stress_1)%nat as Li by (rewrite <- Ll; apply nth_error_Some; congruence).
    destruct (nth_error stress_1 i) as [s1|] eqn:E1; [|apply nth_error_None in E1; lia]. destruct (A i s1 E1) as (l' & s2 & L & d & E' & _ & _ & _ & (_ & _ & o & P1 & P2 & _) & P). rewrite E' in Hi. injection Hi as ->.
    split.
    - apply Forall2_len in P2. apply Permutation_length in P1. rewrite Hn, app_length in P1. lia.
    - apply (Permutation_Forall P1) in P. now apply Forall_app in P as [P _]. }
  clear A H. repeat split.
  - destruct (dual_stress m); [apply flat_repeat_length|reflexivity].
  - destruct (dual_stress m); [apply flat_repeat_length|reflexivity].
  - rewrite <- Ll. clear Ll. induction ls as [|l ls IH]; [simpl; lia|]. cbn [flat_map length]. rewrite !app_length. destruct (B l (or_introl eq_refl)) as [B1 _]. specialize (IH (fun l' H' => B l' (or_intror H'))). lia.
  - apply Forall_forall. intros x Hx. apply in_flat_map in Hx as (l & Hl & Hx). destruct (B l Hl) as [_ P]. rewrite Forall_forall in P. now apply P.
Qed.
Print Assumptions C102_aligned.
(** The distribution reported at the use stress has the life of the model there. *)
Theorem C102_use samples shuffle rand name m stress_1 stress_2 p beta sigma u1 u2 fraction data ud : 0 < u1 ->
  make_ALT_data samples shuffle rand name m stress_1 stress_2 p beta sigma (Some (u1, u2)) fraction = Ok (data, ud) ->
  exists d L s2, ud = Some d /\ (dual_stress m = true -> s2 = u2) /\ life_stress m p u1 s2 L /\ with_life name beta sigma L d.
Proof.
  intros Hu H. apply make_ALT_inv in H as (_ & s2 & life & E2 & El & _ & (d & -> & Ed)). cbn [fst snd] in *. exists d, (life u1 (last s2 0)), (last s2 0). split; [reflexivity|]. split; [|split].
  - intros D. rewrite D in E2. destruct E2 as (l & _ & _ & ->). apply last_last.
  - now apply life_model_spec.
  - now apply make_dist_spec.
Qed.
Print Assumptions C102_use.
Example C102_ex : exists data ud,
  make_ALT_data (fun i d => match d with Weibull a b _ => [a; a / 2] | _ => [] end) (fun _ l => rev l) (fun _ k => repeat (1 / 4) k) "Weibull" LS_Power [1; 2] None
    {| q_a := Some 100; q_b := None; q_c := None; q_n := Some 1; q_m := None |} (Some 2) None (Some (1, 0)) (1 / 2) = Ok (data, ud).
Proof.
  unfold make_ALT_data. cbn [dual_stress bind app]. unfold Rltb', Rleb. destruct (Rlt_dec (1 / 2) 0); [lra|]. destruct (Rle_dec 1 (1 / 2)); [lra|]. cbn [orb life_model q_a q_n bind].
  unfold Rleb. destruct (Rle_dec 100 0); [lra|]. cbn [bind length combine firstn alt_loop alt_step fst snd]. unfold alt_step. cbn [make_dist String.eqb Ascii.eqb Bool.eqb bind].
  assert (forall s, Rleb (rmin [100 * Rpower s 1; 100 * Rpower s 1 / 2]) 0 = false) as P.
  { intros s. unfold Rleb. destruct (Rle_dec _ 0) as [C|C]; [|reflexivity]. exfalso. pose proof (Rpower_gt_0 s 1). pose proof (rmin_in [100 * Rpower s 1; 100 * Rpower s 1 / 2]) as I. destruct I as [I|[I|[]]]; [discriminate| |]; rewrite <- I in C; lra. }
  assert (forall sh rd data, exists r, fst (make_right_censored_data sh rd data None (Some (1 / 2))) = Ok r) as Q. { intros. apply C76_errors. lra. }
  rewrite P. destruct (Req_EM_T (1 / 2) 0); [lra|].
  match goal with |- context [fst (make_right_censored_data ?sh ?rd ?dt None (Some ?f))] => destruct (Q sh rd dt) as (r1 & E1) end. rewrite E1. cbn [bind].
  rewrite P. match goal with |- context [fst (make_right_censored_data ?sh ?rd ?dt None (Some ?f))] => destruct (Q sh rd dt) as (r2 & E2) end. rewrite E2. cbn [bind]. eexists _, _. reflexivity.
Qed.
