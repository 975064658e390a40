(** Properties C61-C63 and C95: choice of distributions, of the best fit and of the most likely estimate. *)
From Coq Require Import String.
From Coq Require Import List Arith Reals Lra Lia Bool Sorting.Sorted Permutation.
From Verif Require Import Base RealFacts RList ConvertModel RepairModel DistModel RegProofs SelModel SelSpec SelProofs.
Import ListNotations.
Open Scope R_scope.

(** ** C61 *)
Lemma everything_inv kde fit sort ex by_ failures rc df2 best : Fit_Everything kde fit sort ex by_ failures rc = Ok (df2, best) ->
  exists f c rest, check_data D_Everything false failures rc = Ok (f, c) /\
    sort_rows sort by_ (map fit (to_fit ex f c)) = Ok df2 /\ df2 = best :: rest.
Proof.
  intros H. unfold Fit_Everything in H. apply bind_ok in H. destruct H as ((f, c) & H1 & H). apply bind_ok in H. destruct H as (rows & H2 & H).
  apply bind_ok in H. destruct H as (d & H3 & H). cbn [fst snd] in *. apply fit_all_value in H2. subst rows. destruct d as [|b rest]; [discriminate|]. injection H as <- <-.
  exists f, c, rest. auto.
Qed.

(** The results are exactly the fits of the distributions that were not excluded, and the best
    one is one of them. *)
Theorem C61_results kde fit sort ex by_ failures rc df2 best : sorts sort ->
  Fit_Everything kde fit sort ex by_ failures rc = Ok (df2, best) ->
  exists f c, check_data D_Everything false failures rc = Ok (f, c) /\ Permutation (map fit (to_fit ex f c)) df2 /\ In best df2 /\
    forall d, In d (to_fit ex f c) <-> In d all_dists /\ ~ In d (excluded ex f c).
Proof.
  intros Hs H. destruct (everything_inv _ _ _ _ _ _ _ _ _ H) as (f & c & rest & H1 & H2 & ->). exists f, c. split; [exact H1|].
  destruct (sort_rows_perm _ _ _ _ Hs H2) as [HP _]. split; [exact HP|]. split; [now left|]. intros d. apply to_fit_In.
Qed.
Print Assumptions C61_results.

Lemma least_bad_perm cr best a b : Permutation a b -> least_bad cr best a -> least_bad cr best b.
Proof. intros HP [H1 H2]. split; [now apply (Permutation_in _ HP)|]. intros r Hr. apply H2. now apply (Permutation_in _ (Permutation_sym HP)). Qed.
Lemma ok_list {A} (l r : list A) : match l with [] => Err ValueError | a :: t => Ok (a :: t) end = Ok r -> l = r.
Proof. destruct l; [discriminate|]. intros [= <-]. reflexivity. Qed.

(** BIC and AD, in any capitalisation. *)
Theorem C61_best_BIC_AD kde fit sort ex by_ cr failures rc df2 best : sorts sort ->
  (upper by_ = "BIC"%string /\ cr = By_BIC) \/ (upper by_ = "AD"%string /\ cr = By_AD) ->
  Fit_Everything kde fit sort ex by_ failures rc = Ok (df2, best) -> least_bad cr best df2.
Proof.
  intros Hs Hc H. destruct (everything_inv _ _ _ _ _ _ _ _ _ H) as (f & c & rest & H1 & H2 & E). destruct (sort_rows_perm _ _ _ _ Hs H2) as [HP _].
  apply (least_bad_perm _ _ _ _ HP). destruct Hc as [[Hu ->]|[Hu ->]].
  - rewrite (sort_rows_BIC _ _ _ Hu) in H2. apply ok_list in H2. rewrite E in H2. exact (sort_head _ _ _ _ _ Hs H2).
  - rewrite (sort_rows_AD _ _ _ Hu) in H2. apply ok_list in H2. rewrite E in H2. exact (sort_head _ _ _ _ _ Hs H2).
Qed.
Print Assumptions C61_best_BIC_AD.

(** AICc: least AICc when every fit has one; least BIC when some has not, for the spellings
    AIC, aic, aicc and AICc. *)
Theorem C61_best_AICc kde fit sort ex by_ failures rc df2 best : sorts sort -> In (upper by_) ["AICC"; "AIC"]%string ->
  Fit_Everything kde fit sort ex by_ failures rc = Ok (df2, best) ->
  ((forall r, In r df2 -> f_AICc r <> None) -> least_bad By_AICc best df2) /\
  (In by_ ["AIC"; "aic"; "aicc"; "AICc"]%string -> (exists r, In r df2 /\ f_AICc r = None) -> least_bad By_BIC best df2).
Proof.
  intros Hs Hu H. destruct (everything_inv _ _ _ _ _ _ _ _ _ H) as (f & c & rest & H1 & H2 & E). destruct (sort_rows_perm _ _ _ _ Hs H2) as [HP _].
  set (rows := map fit (to_fit ex f c)) in *. split.
  - intros Hall. apply (least_bad_perm _ _ _ _ HP). assert (forall r, In r rows -> f_AICc r <> None) as Hall' by (intros r Hr; apply Hall; now apply (Permutation_in _ HP)).
    assert (forallb has_AICc rows = true) as HF by (apply forallb_forall; intros r Hr; specialize (Hall' r Hr); unfold has_AICc; destruct (f_AICc r); congruence).
    assert (sort AICc_value rows = best :: rest) as HS.
    { destruct (in_dec string_dec by_ ["AIC"; "aic"; "aicc"; "AICc"]%string) as [I|I].
      - rewrite (sort_rows_AICc _ _ _ I), HF in H2. apply ok_list in H2. congruence.
      - rewrite (sort_rows_AICC _ _ _ Hu I), HF in H2. cbn [orb] in H2. apply ok_list in H2. congruence. }
    destruct (sort_head _ _ _ _ _ Hs HS) as [B1 B2]. split; [exact B1|]. intros r Hr. specialize (B2 r Hr). specialize (Hall' r Hr) as N1. specialize (Hall' best B1) as N2.
    unfold AICc_value in B2. cbn [at_least_as_good]. destruct (f_AICc best), (f_AICc r); congruence || exact B2.
  - intros I (r & Hr & Hn). apply (least_bad_perm _ _ _ _ HP).
    assert (forallb has_AICc rows = false) as HF.
    { apply not_true_iff_false. intros HF. rewrite forallb_forall in HF. specialize (HF r (Permutation_in _ (Permutation_sym HP) Hr)). unfold has_AICc in HF. rewrite Hn in HF. discriminate. }
    rewrite (sort_rows_AICc _ _ _ I), HF in H2. apply ok_list in H2. rewrite E in H2. exact (sort_head _ _ _ _ _ Hs H2).
Qed.
Print Assumptions C61_best_AICc.

(** Log-likelihood: the greatest, provided none is positive. *)
Theorem C61_best_loglik_partial kde fit sort ex by_ failures rc df2 best : sorts sort -> In (upper by_) loglik_names ->
  Fit_Everything kde fit sort ex by_ failures rc = Ok (df2, best) -> (forall r, In r df2 -> f_loglik r <= 0) -> least_bad By_loglik best df2.
Proof.
  intros Hs Hu H Hneg. destruct (everything_inv _ _ _ _ _ _ _ _ _ H) as (f & c & rest & H1 & H2 & E). destruct (sort_rows_perm _ _ _ _ Hs H2) as [HP _].
  apply (least_bad_perm _ _ _ _ HP). rewrite (sort_rows_loglik _ _ _ Hu) in H2. apply ok_list in H2. rewrite E in H2.
  destruct (sort_head _ _ _ _ _ Hs H2) as [B1 B2]. split; [exact B1|]. intros r Hr. specialize (B2 r Hr). cbn beta in B2. cbn [at_least_as_good].
  pose proof (Hneg r (Permutation_in _ HP Hr)). pose proof (Hneg best (Permutation_in _ HP B1)).
  rewrite (Rabs_left1 (f_loglik best)), (Rabs_left1 (f_loglik r)) in B2 by assumption. lra.
Qed.
Print Assumptions C61_best_loglik_partial.

(** A concrete run used below: two failures, all the distributions with at most two parameters. *)
Fixpoint demo_insert (key : fit_row -> R) (a : fit_row) (l : list fit_row) : list fit_row :=
  match l with [] => [a] | b :: r => if Rle_dec (key a) (key b) then a :: b :: r else b :: demo_insert key a r end.
Definition demo_sort (key : fit_row -> R) (l : list fit_row) : list fit_row := fold_right (demo_insert key) [] l.
Lemma demo_sorts : sorts demo_sort.
Proof.
  intros key rows. assert (forall a l, Permutation (a :: l) (demo_insert key a l)) as HP.
  { intros a. induction l as [|b l IH]; cbn [demo_insert]; [reflexivity|]. destruct (Rle_dec _ _); [reflexivity|]. rewrite perm_swap. now constructor. }
  assert (forall a l, StronglySorted (fun a b => key a <= key b) l -> StronglySorted (fun a b => key a <= key b) (demo_insert key a l)) as HS.
  { intros a l S. induction S as [|b l S IH HF]; cbn [demo_insert]; [constructor; constructor|]. destruct (Rle_dec (key a) (key b)) as [L|L].
    - constructor; [now constructor|]. constructor; [exact L|]. rewrite Forall_forall in *. intros x Hx. specialize (HF x Hx). cbv beta in *. lra.
    - constructor; [exact IH|]. rewrite Forall_forall in *. intros x Hx. apply (Permutation_in _ (Permutation_sym (HP a l))) in Hx. destruct Hx as [<-|Hx]; [lra|now apply HF]. }
  induction rows as [|a rows [IH1 IH2]]; cbn [demo_sort fold_right]; [split; [reflexivity|constructor]|]. split.
  - etransitivity; [|apply HP]. now constructor.
  - now apply HS.
Qed.
Lemma demo_checked : check_data D_Everything false [1; 2] [] = Ok ([1; 2], []).
Proof.
  rewrite check_positive; try discriminate.
  - cbn [min_failures]. rewrite unique_NoDup by (apply NoDup2; lra). reflexivity.
  - repeat (apply Forall_cons; [lra|]). apply Forall_nil.
  - apply Forall_nil.
  - rewrite unique_NoDup by (apply NoDup2; lra). simpl. lia.
Qed.
Definition demo_dists : list dname := [D_Exponential_2P; D_Normal_2P; D_Lognormal_2P; D_Gumbel_2P; D_Weibull_2P; D_Weibull_DS; D_Gamma_2P; D_Exponential_1P; D_Loglogistic_2P].
Lemma demo_to_fit : to_fit [] [1; 2] [] = demo_dists.
Proof.
  unfold to_fit, excluded, extend_exclude. cbn [length Nat.ltb Nat.leb app]. rewrite recognised_few. cbn [dmem existsb dname_eqb orb app].
  destruct (Rle_dec 1 1); [|lra]. reflexivity.
Qed.
Lemma demo_run kde fit sort by_ : sorts sort -> Fit_Everything kde fit sort [] by_ [1; 2] [] =
  let! df2 := sort_rows sort by_ (map fit demo_dists) in match df2 with [] => Err IndexError | best :: _ => Ok (df2, best) end.
Proof.
  intros Hs. unfold Fit_Everything. rewrite demo_checked. cbn [bind fst snd]. rewrite fit_all_ok.
  - rewrite demo_to_fit. reflexivity.
  - intros d Hd. apply (everything_accepts kde [] [1; 2] [] [1; 2] [] d demo_checked); [apply NoDup2; lra|now left|exact Hd].
Qed.
Example C61_case kde fit : exists df2 best, Fit_Everything kde fit demo_sort [] "BIC" [1; 2] [] = Ok (df2, best) /\ length df2 = 9%nat.
Proof.
  rewrite (demo_run kde fit demo_sort "BIC" demo_sorts), sort_rows_BIC by reflexivity. pose proof (Permutation_length (proj1 (demo_sorts f_BIC (map fit demo_dists)))) as L.
  rewrite map_length in L. cbn [length demo_dists] in L. destruct (demo_sort f_BIC (map fit demo_dists)) as [|b l] eqn:E; [discriminate L|]. cbn [bind]. exists (b :: l), b. split; [reflexivity|exact (eq_sym L)].
Qed.

(** With positive log-likelihoods the fit nearest to zero wins instead of the greatest. *)
Theorem C61_loglik_refuted : exists kde fit sort df2 best, sorts sort /\
  Fit_Everything kde fit sort [] "LL" [1; 2] [] = Ok (df2, best) /\ exists r, In r df2 /\ f_loglik best < f_loglik r.
Proof.
  set (fit := fun d => {| f_dist := d; f_loglik := if dname_eqb d D_Normal_2P then 5 else 10; f_AICc := None; f_BIC := 0; f_AD := 0 |}).
  pose proof (demo_run (fun _ => 0) fit demo_sort "LL" demo_sorts) as H. rewrite sort_rows_loglik in H by (vm_compute; tauto).
  destruct (demo_sort (fun r => Rabs (f_loglik r)) (map fit demo_dists)) as [|b l] eqn:E.
  { exfalso. pose proof (Permutation_length (proj1 (demo_sorts (fun r => Rabs (f_loglik r)) (map fit demo_dists)))) as L. rewrite E in L. discriminate L. }
  cbn [bind] in H. exists (fun _ => 0), fit, demo_sort, (b :: l), b. split; [exact demo_sorts|]. split; [exact H|].
  destruct (sort_head _ _ _ _ _ demo_sorts E) as [B1 B2]. exists (fit D_Weibull_2P). split.
  - rewrite <- E. apply (Permutation_in _ (proj1 (demo_sorts _ _))). apply in_map. cbn. tauto.
  - specialize (B2 (fit D_Normal_2P) (in_map fit demo_dists D_Normal_2P ltac:(cbn; tauto))). change (f_loglik (fit D_Normal_2P)) with 5 in B2. rewrite (Rabs_right 5) in B2 by lra.
    assert (f_loglik b <= 5) by (eapply Rle_trans; [apply Rle_abs|exact B2]). change (f_loglik (fit D_Weibull_2P)) with 10. lra.
Qed.
Print Assumptions C61_loglik_refuted.
(** sort_by "AICC" is not among the spellings that fall back to BIC: comparing the text with
    numbers raises TypeError. *)
Theorem C61_AICC_refuted : exists kde fit, forall sort, sorts sort -> Fit_Everything kde fit sort [] "AICC" [1; 2] [] = Err TypeError.
Proof.
  exists (fun _ => 0), (fun d => {| f_dist := d; f_loglik := - 1; f_AICc := if dname_eqb d D_Exponential_1P then Some 1 else None; f_BIC := 0; f_AD := 0 |}).
  intros sort Hs. rewrite demo_run by exact Hs. rewrite sort_rows_AICC; [reflexivity|vm_compute; tauto|]. cbn. intros [H|[H|[H|[H|[]]]]]; discriminate H.
Qed.
Print Assumptions C61_AICC_refuted.
Theorem C61_rejected kde fit sort ex by_ failures rc : sorts sort -> ~ In (upper by_) (["BIC"; "AICC"; "AIC"; "AD"]%string ++ loglik_names) ->
  exists e, Fit_Everything kde fit sort ex by_ failures rc = Err e /\ e = ValueError.
Proof.
  intros Hs N. unfold Fit_Everything. destruct (check_data D_Everything false failures rc) as [[f c]|e] eqn:E1; cbn [bind].
  2: { exists e. split; [reflexivity|]. eapply check_err; exact E1. }
  cbn [fst snd]. destruct (fit_all kde fit (to_fit ex f c) f c) as [rows|e] eqn:E2; cbn [bind].
  - assert (sort_rows sort by_ rows = Err ValueError) as ->; [|cbn [bind]; eauto]. unfold sort_rows.
    assert (str_in by_ ["AIC"; "aic"; "aicc"; "AICc"]%string = false) as ->.
    { unfold str_in. cbn [existsb]. repeat match goal with |- context [String.eqb by_ ?k] => destruct (String.eqb_spec by_ k) as [->|]; [exfalso; apply N; cbn; tauto|] end. reflexivity. }
    cbn [andb]. cbv zeta.
    assert (forall k l, In k l -> incl l (["BIC"; "AICC"; "AIC"; "AD"]%string ++ loglik_names) -> String.eqb (upper by_) k = false) as K.
    { intros k l Hk Hl. destruct (String.eqb_spec (upper by_) k) as [Ek|]; [|reflexivity]. exfalso. apply N. rewrite Ek. apply Hl, Hk. }
    rewrite (K "BIC"%string ["BIC"]%string) by (try (now left); intros x [<-|[]]; cbn; tauto). rewrite (K "AD"%string ["AD"]%string) by (try (now left); intros x [<-|[]]; cbn; tauto).
    assert (forall l, incl l (["BIC"; "AICC"; "AIC"; "AD"]%string ++ loglik_names) -> str_in (upper by_) l = false) as K2.
    { intros l Hl. unfold str_in. apply existsb_false_iff. intros k Hk. now apply (K k l). }
    rewrite (K2 ["AICC"; "AIC"]%string) by (intros x [<-|[<-|[]]]; cbn; tauto). rewrite (K2 loglik_names) by (intros x Hx; apply in_or_app; now right). reflexivity.
  - exists e. split; [reflexivity|]. clear -E2. revert e E2. induction (to_fit ex f c) as [|d l IH]; intros e E2; cbn [fit_all] in E2; [discriminate|].
    destruct (fitter_accepts kde d f c) eqn:EA; cbn [bind] in E2; [|injection E2 as <-; eapply accepts_err; exact EA].
    destruct (fit_all kde fit l f c) eqn:EL; cbn [bind] in E2; [discriminate|]. injection E2 as <-. now apply IH.
Qed.
Print Assumptions C61_rejected.

(** ** C62 *)

(** Accepted: exactly two failures, or at least four, all different. *)
Theorem C62_accepts_partial kde ex failures rc f c d : check_data D_Everything false failures rc = Ok (f, c) ->
  NoDup f -> (length f = 2 \/ 4 <= length f)%nat -> In d (to_fit ex f c) -> fitter_accepts kde d f c = Ok tt.
Proof. exact (everything_accepts kde ex failures rc f c d). Qed.
Print Assumptions C62_accepts_partial.
(** With ties: every distribution but the mixture and the competing risks model accepts three
    different failures. *)
Theorem C62_ties_partial kde ex failures rc f c d : check_data D_Everything false failures rc = Ok (f, c) ->
  (3 <= unique_count f)%nat -> In d (to_fit ex f c) -> d <> D_Weibull_Mixture -> d <> D_Weibull_CR -> fitter_accepts kde d f c = Ok tt.
Proof.
  intros H H3 Hd N1 N2. destruct (everything_checked _ _ _ _ H) as (Hf & Hc & H2). rewrite (single_accepts kde ex) by (assumption || lia).
  pose proof (min_failures_3 d N1 N2). now rewrite (proj2 (Nat.ltb_ge _ _)) by lia.
Qed.
Print Assumptions C62_ties_partial.
Example C62_case : check_data D_Everything false [1; 2] [] = Ok ([1; 2], []) /\ NoDup [1; 2].
Proof. split; [exact demo_checked|apply NoDup2; lra]. Qed.

(** Three or more failures with fewer than four different values are always rejected. *)
Theorem C62_three_failures_refuted : exists failures, (unique_count failures >= 3)%nat /\ check_data D_Everything false failures [] = Ok (failures, []) /\
  forall kde fit sort by_, Fit_Everything kde fit sort [] by_ failures [] = Err ValueError.
Proof.
  assert (NoDup [1; 2; 3]) as HN by (constructor; [simpl; intros [H|[H|[]]]; lra|apply NoDup2; lra]).
  assert (unique_count [1; 2; 3] = 3%nat) as HU by now rewrite unique_NoDup.
  assert (check_data D_Everything false [1; 2; 3] [] = Ok ([1; 2; 3], [])) as HC.
  { rewrite check_positive; try discriminate.
    - rewrite HU. reflexivity.
    - repeat (apply Forall_cons; [lra|]). apply Forall_nil.
    - apply Forall_nil.
    - rewrite HU. lia. }
  exists [1; 2; 3]. split; [lia|]. split; [exact HC|]. intros kde fit sort by_. apply (everything_rejects kde fit sort by_ _ _ _ _ HC); [simpl; lia|lia].
Qed.
Print Assumptions C62_three_failures_refuted.
Theorem C62_rejects kde fit sort by_ failures rc f c : check_data D_Everything false failures rc = Ok (f, c) ->
  (3 <= length f)%nat -> (unique_count f < 4)%nat -> Fit_Everything kde fit sort [] by_ failures rc = Err ValueError.
Proof. exact (everything_rejects kde fit sort by_ failures rc f c). Qed.
Print Assumptions C62_rejects.
(** Five failures with four different values: when the dividing line falls between the tied
    values and the rest, the first group has a single value and the mixture rejects it. *)
Theorem C62_ties_refuted : exists kde f, (unique_count f >= 4)%nat /\ Forall (Rlt 0) f /\ In D_Weibull_Mixture (to_fit [] f []) /\
  fitter_accepts kde D_Weibull_Mixture f [] = Err ValueError /\ fitter_accepts kde D_Weibull_CR f [] = Err ValueError.
Proof.
  set (f := [1; 1; 5; 6; 7]). assert (Forall (Rlt 0) f) as Hf by (repeat (apply Forall_cons; [lra|]); apply Forall_nil).
  assert (group_1 3 f = [1; 1]) as G1.
  { unfold group_1, f. cbn [filter]. unfold Rltb'. destruct (Rlt_dec 1 3); [|lra]. destruct (Rlt_dec 5 3); [lra|]. destruct (Rlt_dec 6 3); [lra|]. destruct (Rlt_dec 7 3); [lra|]. reflexivity. }
  assert (group_2 3 f = [5; 6; 7]) as G2.
  { unfold group_2, f. cbn [filter]. unfold Rltb'. destruct (Rlt_dec 1 3); [|lra]. destruct (Rlt_dec 5 3); [lra|]. destruct (Rlt_dec 6 3); [lra|]. destruct (Rlt_dec 7 3); [lra|]. reflexivity. }
  assert (forall d, d = D_Weibull_Mixture \/ d = D_Weibull_CR -> fitter_accepts (fun _ => 3) d f [] = Err ValueError) as K.
  { intros d Hd. apply mixture_rejects; try assumption; rewrite ?G1, ?G2; [apply Forall_nil|simpl; lia|simpl; lia|left].
    unfold unique_count. cbn [nodup]. destruct (in_dec Req_EM_T 1 [1]) as [|N]; [simpl; lia|exfalso; apply N; now left]. }
  exists (fun _ => 3), f. split; [|split; [exact Hf|split; [|split; apply K; auto]]].
  - apply (unique_ge f [1; 5; 6; 7]).
    + repeat (constructor; [simpl; intros H; repeat destruct H as [H|H]; try lra; contradiction|]). constructor.
    + intros x Hx. simpl in *. tauto.
  - rewrite to_fit_In. split; [cbn; tauto|]. unfold excluded, extend_exclude. cbn [f length Nat.ltb Nat.leb recognised dmem existsb]. destruct (existsb _ _); cbn; intuition discriminate.
Qed.
Print Assumptions C62_ties_refuted.

(** ** C95: exclusions and the caller's list *)

(** The distributions fitted are those not recognised in the exclusion list, without Beta when
    some item is at least 1, and without the six large models when there are fewer than 3
    failures. *)
Theorem C95_fitted ex f c d : In d (to_fit ex f c) <->
  In d all_dists /\ (forall s, In s ex -> exclusion s <> Some d) /\
  ((length f < 3)%nat -> ~ In d [D_Weibull_3P; D_Gamma_3P; D_Loglogistic_3P; D_Lognormal_3P; D_Weibull_Mixture; D_Weibull_CR]) /\
  (d = D_Beta_2P -> Forall (fun t => t < 1) (f ++ c)).
Proof.
  assert (forall l d, In d (recognised l) <-> exists s, In s l /\ exclusion s = Some d) as R.
  { induction l as [|s l IH]; intros d0; cbn [recognised].
    - split; [intros []|intros (s & [] & _)].
    - destruct (exclusion s) as [e|] eqn:E.
      + cbn [In]. rewrite IH. split.
        * intros [->|(s' & H1 & H2)]; [exists s; auto|exists s'; auto].
        * intros (s' & [<-|H1] & H2); [left; congruence|right; eauto].
      + rewrite IH. split.
        * intros (s' & H1 & H2). exists s'. split; [now right|exact H2].
        * intros (s' & [<-|H1] & H2); [congruence|eauto]. }
  assert (forall d, In d (recognised (extend_exclude ex f)) <-> (exists s, In s ex /\ exclusion s = Some d) \/
    ((length f < 3)%nat /\ In d [D_Weibull_3P; D_Gamma_3P; D_Loglogistic_3P; D_Lognormal_3P; D_Weibull_Mixture; D_Weibull_CR])) as RE.
  { intros d0. unfold extend_exclude. destruct (Nat.ltb_spec (length f) 3) as [L|L].
    - rewrite recognised_app, recognised_few, in_app_iff, R. tauto.
    - rewrite R. split; [now left|intros [H|[H _]]; [exact H|lia]]. }
  split.
  - intros H. pose proof H as H0. apply to_fit_In in H. destruct H as [Ha Hn]. split; [exact Ha|]. unfold excluded in Hn.
    assert (~ In d (recognised (extend_exclude ex f))) as Hn'.
    { intros HI. apply Hn. destruct (dmem _ _); [exact HI|]. destruct (existsb _ _); [apply in_or_app; now left|exact HI]. }
    rewrite RE in Hn'. split; [intros s Hs He; apply Hn'; left; eauto|]. split; [intros HL HI; apply Hn'; right; auto|]. intros ->. exact (beta_below_one ex f c H0).
  - intros (Ha & Hs & HL & HB). apply to_fit_In. split; [exact Ha|]. intros HI. unfold excluded in HI.
    assert (~ In d (recognised (extend_exclude ex f))) as Hn by (rewrite RE; intros [(s & H1 & H2)|[H1 H2]]; [exact (Hs s H1 H2)|exact (HL H1 H2)]).
    destruct (dmem _ _); [contradiction|]. destruct (existsb _ (f ++ c)) eqn:E; [|contradiction]. apply in_app_or in HI. destruct HI as [HI|[<-|[]]]; [contradiction|].
    specialize (HB eq_refl). rewrite Forall_forall in HB. apply existsb_exists in E. destruct E as (t & Ht & E). specialize (HB t Ht). destruct (Rle_dec 1 t); [lra|discriminate].
Qed.
Print Assumptions C95_fitted.
(** The list passed as exclude is extended in place: after a call with two failures, a second
    call with the same list leaves out distributions it would otherwise fit. *)
Theorem C95_exclude_leaks_refuted : exists exclude f1 f2, (4 <= unique_count f2)%nat /\
  extend_exclude exclude f1 <> exclude /\
  In D_Weibull_3P (to_fit exclude f2 []) /\ ~ In D_Weibull_3P (to_fit (extend_exclude exclude f1) f2 []).
Proof.
  exists ["Beta_2P"%string], [1; 2], [1; 2; 3; 4]. split; [|split; [discriminate|split]].
  - apply (unique_ge _ [1; 2; 3; 4]); [|intros x Hx; exact Hx]. repeat (constructor; [simpl; intros H; repeat destruct H as [H|H]; try lra; contradiction|]). constructor.
  - rewrite C95_fitted. split; [cbn; tauto|]. split; [intros s [<-|[]]; vm_compute; discriminate|]. split; [simpl; lia|discriminate].
  - rewrite C95_fitted. intros (_ & H & _). apply (H "Weibull_3P"%string); [cbn; tauto|reflexivity].
Qed.
Print Assumptions C95_exclude_leaks_refuted.
Theorem C95_exclude_unchanged_partial exclude f1 : (3 <= length f1)%nat -> extend_exclude exclude f1 = exclude.
Proof. intros H. unfold extend_exclude. now rewrite (proj2 (Nat.ltb_ge _ _) H). Qed.
Print Assumptions C95_exclude_unchanged_partial.

(** The names recognised, in any capitals. No other name excludes anything. *)
Theorem C95_names s d : exclusion s = Some d <-> In (upper s) (spellings d).
Proof.
  assert (forall u l, str_in u l = true <-> In u l) as SI.
  { intros u l. unfold str_in. rewrite existsb_exists. split; [intros (x & Hx & E); apply String.eqb_eq in E; now subst|intros H; exists u; split; [exact H|apply String.eqb_refl]]. }
  unfold exclusion. generalize (upper s). clear s. intros u. split.
  - cbv zeta. intros H. repeat match type of H with (if str_in ?v ?l then _ else _) = _ => destruct (str_in v l) eqn:B; [apply SI in B; assert (D := f_equal (fun o => match o with Some x => x | None => D_Everything end) H); cbn beta iota in D; subst d; clear SI H; cbn in B |- *; tauto|clear B] end. discriminate.
  - intros H. destruct d; cbn in H; repeat (destruct H as [<-|H]; [vm_compute; reflexivity|]); destruct H.
Qed.
Print Assumptions C95_names.
Example C95_names_case : exclusion "Weibull2" = Some D_Weibull_2P /\ exclusion "expon_1p" = Some D_Exponential_1P /\ exclusion "Weibull" = None.
Proof. repeat split; vm_compute; reflexivity. Qed.

(** ** C63 *)
Theorem C63_LS_partial {P} (LL_func : P -> R) gx gy : 0 <= LL_func gx -> 0 <= LL_func gy ->
  let (m, g) := LS_choice LL_func gx gy in
  (m = M_RRX /\ g = gx \/ m = M_RRY /\ g = gy) /\ - LL_func gx <= - LL_func g /\ - LL_func gy <= - LL_func g.
Proof.
  intros Hx Hy. unfold LS_choice. rewrite !Rabs_Ropp, !Rabs_right by lra. destruct (Rlt_dec (LL_func gx) (LL_func gy)); split; auto; lra.
Qed.
Print Assumptions C63_LS_partial.
(** A positive log-likelihood is nothing special (short times): then the worse estimate is taken. *)
Theorem C63_LS_refuted : exists (LL_func : bool -> R) gx gy, - LL_func (snd (LS_choice LL_func gx gy)) < - LL_func gy.
Proof.
  exists (fun b : bool => if b then - 1 else - 2), true, false. unfold LS_choice. rewrite !Rabs_right by lra. destruct (Rlt_dec (- -1) (- -2)); cbn [snd]; lra.
Qed.
Print Assumptions C63_LS_refuted.

(** The answer of one optimizer: one to five runs, each from the previous answer. *)
Theorem C63_runs {P} (minimize : opt -> P -> bool * P) LL_func o guess :
  exists k, (1 <= k <= 5)%nat /\
    let r := loglik_optimizer minimize LL_func o guess in (fst (fst r), snd r) = rerun (minimize o) k guess /\ snd (fst r) = Rabs (2 * LL_func (snd r)).
Proof. destruct (runs_spec minimize LL_func o 5 guess (IZR 1000000) _ eq_refl) as (k & H1 & H2 & H3). exists k. split; [simpl in H1; lia|]. split; [exact H2|exact H3]. Qed.
Print Assumptions C63_runs.

(** A named optimizer or "best": the most likely of the successful ones, when no
    log-likelihood is positive. Failure of all of them returns the initial guess. *)
Theorem C63_MLE_partial {P} (minimize : opt -> P -> bool * P) LL_func s os guess ok o x :
  let answer o := snd (loglik_optimizer minimize LL_func o guess) in
  let succeeded o := fst (fst (loglik_optimizer minimize LL_func o guess)) = true in
  optimizers_to_try (Some s) = Ok os -> (forall o, In o os -> succeeded o -> - LL_func (answer o) <= 0) -> MLE_optimization minimize LL_func (Some s) guess = Ok (ok, o, x) ->
  (ok = true -> exists o', o = Some o' /\ In o' os /\ succeeded o' /\ x = answer o' /\
     forall o'', In o'' os -> succeeded o'' -> - LL_func (answer o'') <= - LL_func x) /\
  (ok = false -> o = None /\ x = guess /\ forall o'', In o'' os -> ~ succeeded o'').
Proof.
  cbv zeta. intros Hos Hneg H. destruct (mle_spec minimize LL_func (Some s) guess _ H) as (os' & E & HS). rewrite Hos in E. injection E as <-.
  unfold tried in HS. rewrite attempts_all in HS. destruct HS as [(o' & x' & E & (a & Ha & Hok & E1 & E2) & HB)|[E HF]]; injection E as -> -> ->.
  - split; [|discriminate]. intros _. exists o'. apply in_map_iff in Ha. destruct Ha as (q & <- & Hq). cbn [fst] in E1. subst q. unfold a_x, a_ok in *. cbn [fst snd] in *.
    split; [reflexivity|]. split; [exact Hq|]. split; [exact Hok|]. split; [now rewrite E2|]. intros o'' Ho'' Hs''.
    specialize (HB _ (in_map (fun o => (o, loglik_optimizer minimize LL_func o guess)) _ _ Ho'') Hs''). cbn [fst snd] in HB. pose proof (Hneg o' Hq Hok). pose proof (Hneg o'' Ho'' Hs''). rewrite <- E2 in *. rewrite !Rabs_right in HB by lra. lra.
  - split; [discriminate|]. intros _. split; [reflexivity|]. split; [reflexivity|]. intros o'' Ho'' Hs''.
    specialize (HF _ (in_map (fun o => (o, loglik_optimizer minimize LL_func o guess)) _ _ Ho'')). unfold a_ok in HF. cbn [fst snd] in HF. congruence.
Qed.
Print Assumptions C63_MLE_partial.
(** The default: the first optimizer that succeeds, in the order TNC, L-BFGS-B, nelder-mead, powell. *)
Theorem C63_MLE_default {P} (minimize : opt -> P -> bool * P) LL_func guess ok o x :
  MLE_optimization minimize LL_func None guess = Ok (ok, o, x) ->
  let answer o := snd (loglik_optimizer minimize LL_func o guess) in
  let succeeded o := fst (fst (loglik_optimizer minimize LL_func o guess)) = true in
  (ok = true -> exists o' pre post, o = Some o' /\ x = answer o' /\ succeeded o' /\ [TNC; L_BFGS_B; Nelder_Mead; Powell] = pre ++ o' :: post /\ forall o'', In o'' pre -> ~ succeeded o'') /\
  (ok = false -> o = None /\ x = guess /\ forall o'', ~ succeeded o'').
Proof.
  intros H. cbv zeta. destruct (mle_spec minimize LL_func None guess _ H) as (os & E & HS). cbn [optimizers_to_try] in E. injection E as <-. unfold tried in HS.
  destruct HS as [(o' & x' & E & (a & Ha & Hok & E1 & E2) & _)|[E HF]]; injection E as -> -> ->.
  - split; [|discriminate]. intros _. destruct (attempts_stop minimize LL_func _ _ _ Ha Hok) as (pre & post & E3 & Hp). destruct (attempts_In minimize LL_func _ _ _ _ Ha) as [_ E4].
    subst o'. exists (fst a), pre, post. split; [reflexivity|]. split; [rewrite <- E4; symmetry; exact E2|]. split; [rewrite <- E4; exact Hok|]. split; [exact E3|].
    intros o'' Ho''. rewrite (Hp o'' Ho''). discriminate.
  - split; [discriminate|]. intros _. split; [reflexivity|]. split; [reflexivity|]. intros o'' Hs. cbn [attempts] in HF. rewrite !andb_true_r in HF.
    assert (forall o, (fst (fst (loglik_optimizer minimize LL_func o guess))) = false -> o'' <> o) as N by (intros o1 H1 ->; congruence).
    destruct (fst (fst (loglik_optimizer minimize LL_func TNC guess))) eqn:E1; [specialize (HF _ (or_introl eq_refl)); unfold a_ok in HF; cbn [fst snd] in HF; congruence|].
    destruct (fst (fst (loglik_optimizer minimize LL_func L_BFGS_B guess))) eqn:E2; [specialize (HF _ (or_intror (or_introl eq_refl))); unfold a_ok in HF; cbn [fst snd] in HF; congruence|].
    destruct (fst (fst (loglik_optimizer minimize LL_func Nelder_Mead guess))) eqn:E3; [specialize (HF _ (or_intror (or_intror (or_introl eq_refl)))); unfold a_ok in HF; cbn [fst snd] in HF; congruence|].
    destruct (fst (fst (loglik_optimizer minimize LL_func Powell guess))) eqn:E4; [specialize (HF _ (or_intror (or_intror (or_intror (or_introl eq_refl))))); unfold a_ok in HF; cbn [fst snd] in HF; congruence|].
    destruct o''; [exact (N TNC E1 eq_refl)|exact (N L_BFGS_B E2 eq_refl)|exact (N Nelder_Mead E3 eq_refl)|exact (N Powell E4 eq_refl)].
Qed.
Print Assumptions C63_MLE_default.
Theorem C63_MLE_refuted : exists (minimize : opt -> bool -> bool * bool) LL_func guess o x o'',
  MLE_optimization minimize LL_func (Some "best"%string) guess = Ok (true, Some o, x) /\
  fst (fst (loglik_optimizer minimize LL_func o'' guess)) = true /\ - LL_func x < - LL_func (snd (loglik_optimizer minimize LL_func o'' guess)).
Proof.
  set (minimize := fun (o : opt) (g : bool) => (true, match o with TNC => true | _ => false end)). set (LL_func := fun b : bool => if b then - 1 else - 2).
  assert (forall o, loglik_optimizer minimize LL_func o true = (true, Rabs (2 * LL_func (snd (minimize o true))), snd (minimize o true))) as K.
  { intros o. destruct (runs_spec minimize LL_func o 5 true (IZR 1000000) _ eq_refl) as (k & Hk & H1 & H2). unfold loglik_optimizer. set (r := mle_runs minimize LL_func 5 o true (IZR 1000000)) in *.
    assert (forall k0 (g : bool), (1 <= k0)%nat -> rerun (minimize o) k0 g = minimize o g) as HR.
    { induction k0 as [|k0 IH]; intros g Hg; [lia|]. destruct k0 as [|k0]; [reflexivity|]. cbn [rerun]. change (rerun (minimize o) (S k0) (snd (minimize o g)) = minimize o g). rewrite IH by lia. reflexivity. }
    rewrite HR in H1 by lia. destruct r as [[ok l] x]. cbn [fst snd] in *. injection H1 as -> ->. rewrite H2. reflexivity. }
  exists minimize, LL_func, true, TNC, true, Powell. unfold MLE_optimization. cbn [optimizers_to_try]. change (str_in "best" ["best"; "BEST"; "all"; "ALL"]%string) with true. cbv iota. cbn [bind].
  rewrite attempts_all. cbn [map]. rewrite !K. cbn [filter a_ok fst snd first_min a_LL minimize LL_func].
  rewrite !Rabs_left by lra. split; [|split; [reflexivity|lra]].
  repeat (match goal with |- context [Rlt_dec ?a ?b] => destruct (Rlt_dec a b) as [Hlt|]; [exfalso; unfold a_LL in Hlt; cbn [fst snd] in Hlt; lra|]; cbv iota end). reflexivity.
Qed.
Print Assumptions C63_MLE_refuted.
Example C63_case : exists os, optimizers_to_try (Some "best"%string) = Ok os /\ length os = 4%nat.
Proof. eexists. split; reflexivity. Qed.
