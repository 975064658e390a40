From Coq Require Import String.
From Coq Require Import List Arith Reals Lra Lia Bool Sorting.Sorted Permutation.
From Verif Require Import Base RealFacts RList ConvertModel RepairModel RepairProofs2 DistModel RegProofs SelModel SelSpec.
Import ListNotations.
Open Scope R_scope.

(** ** Sorting *)
Lemma head_least (key : fit_row -> R) best rest r : StronglySorted (fun a b => key a <= key b) (best :: rest) -> In r (best :: rest) -> key best <= key r.
Proof. intros H [<-|Hin]; [lra|]. inversion H as [|? ? _ HF]; subst. rewrite Forall_forall in HF. now apply HF. Qed.
Lemma sort_head sort key rows best rest : sorts sort -> sort key rows = best :: rest -> In best rows /\ forall r, In r rows -> key best <= key r.
Proof.
  intros Hs E. destruct (Hs key rows) as [HP HS]. rewrite E in HP, HS. split.
  - apply (Permutation_in _ (Permutation_sym HP)). now left.
  - intros r Hr. apply (head_least _ _ _ _ HS). now apply (Permutation_in _ HP).
Qed.

Lemma sort_rows_perm sort sort_by rows df2 : sorts sort -> sort_rows sort sort_by rows = Ok df2 -> Permutation rows df2 /\ df2 <> [].
Proof.
  intros Hs. unfold sort_rows. set (s := if _ && _ then _ else sort_by). clearbody s. cbv zeta. intros H. apply bind_ok in H. destruct H as (d & H1 & H2).
  assert (d = df2 /\ d <> []) as [-> Hne] by (destruct d; [discriminate|injection H2 as <-; split; [reflexivity|discriminate]]).
  split; [|exact Hne]. repeat match type of H1 with (if ?b then _ else _) = _ => destruct b end; try discriminate; injection H1 as <-; apply Hs.
Qed.

Lemma sort_rows_BIC sort sort_by rows : upper sort_by = "BIC"%string ->
  sort_rows sort sort_by rows = match sort f_BIC rows with [] => Err ValueError | l => Ok l end.
Proof.
  intros H. unfold sort_rows.
  assert (str_in sort_by ["AIC"; "aic"; "aicc"; "AICc"]%string = false) as ->.
  { unfold str_in. cbn [existsb]. repeat match goal with |- context [String.eqb sort_by ?k] => destruct (String.eqb_spec sort_by k) as [->|]; [discriminate H|] end. reflexivity. }
  cbn [andb]. cbv zeta. rewrite H. cbn [String.eqb Ascii.eqb eqb bind]. destruct (sort f_BIC rows); reflexivity.
Qed.
Lemma sort_rows_AD sort sort_by rows : upper sort_by = "AD"%string ->
  sort_rows sort sort_by rows = match sort f_AD rows with [] => Err ValueError | l => Ok l end.
Proof.
  intros H. unfold sort_rows.
  assert (str_in sort_by ["AIC"; "aic"; "aicc"; "AICc"]%string = false) as ->.
  { unfold str_in. cbn [existsb]. repeat match goal with |- context [String.eqb sort_by ?k] => destruct (String.eqb_spec sort_by k) as [->|]; [discriminate H|] end. reflexivity. }
  cbn [andb]. cbv zeta. rewrite H. change (String.eqb "AD" "BIC") with false. change (str_in "AD" ["AICC"; "AIC"]%string) with false. change (String.eqb "AD" "AD") with true.
  cbv iota. cbn [bind]. destruct (sort f_AD rows); reflexivity.
Qed.
Lemma sort_rows_loglik sort sort_by rows : In (upper sort_by) loglik_names ->
  sort_rows sort sort_by rows = match sort (fun r => Rabs (f_loglik r)) rows with [] => Err ValueError | l => Ok l end.
Proof.
  intros H. unfold sort_rows.
  assert (str_in sort_by ["AIC"; "aic"; "aicc"; "AICc"]%string = false) as ->.
  { unfold str_in. cbn [existsb]. repeat match goal with |- context [String.eqb sort_by ?k] => destruct (String.eqb_spec sort_by k) as [->|];
      [exfalso; unfold loglik_names in H; simpl in H; repeat destruct H as [H|H]; try discriminate H; contradiction|] end. reflexivity. }
  cbn [andb]. cbv zeta. unfold loglik_names in H. simpl in H.
  repeat destruct H as [H|H]; try contradiction; rewrite <- H;
    match goal with |- context [String.eqb ?a "BIC"] => change (String.eqb a "BIC") with false; change (str_in a ["AICC"; "AIC"]%string) with false;
      change (String.eqb a "AD") with false; change (str_in a loglik_names) with true end; cbv iota; cbn [bind]; destruct (sort _ rows); reflexivity.
Qed.
(** The four spellings that fall back to BIC. *)
Lemma sort_rows_AICc sort sort_by rows : In sort_by ["AIC"; "aic"; "aicc"; "AICc"]%string ->
  sort_rows sort sort_by rows =
    match (if forallb has_AICc rows then sort AICc_value rows else sort f_BIC rows) with [] => Err ValueError | l => Ok l end.
Proof.
  intros H. unfold sort_rows. destruct (forallb has_AICc rows) eqn:E.
  - rewrite andb_false_r. cbn [negb orb]. cbv zeta. simpl in H.
    repeat destruct H as [H|H]; try contradiction; subst sort_by; match goal with |- context [upper ?a] => let u := eval vm_compute in (upper a) in change (upper a) with u end;
      match goal with |- context [String.eqb ?a "BIC"] => change (String.eqb a "BIC") with false; change (str_in a ["AICC"; "AIC"]%string) with true end; cbv iota; cbn [bind]; destruct (sort _ rows); reflexivity.
  - assert (str_in sort_by ["AIC"; "aic"; "aicc"; "AICc"]%string = true) as ->.
    { simpl in H. repeat destruct H as [H|H]; try contradiction; subst sort_by; reflexivity. }
    cbn [andb negb]. cbv zeta. change (upper "BIC") with "BIC"%string. change (String.eqb "BIC" "BIC") with true. cbv iota. cbn [bind]. destruct (sort f_BIC rows); reflexivity.
Qed.
(** Any other spelling of AIC or AICC. *)
Lemma sort_rows_AICC sort sort_by rows : In (upper sort_by) ["AICC"; "AIC"]%string -> ~ In sort_by ["AIC"; "aic"; "aicc"; "AICc"]%string ->
  sort_rows sort sort_by rows =
    if forallb has_AICc rows || negb (existsb has_AICc rows) then match sort AICc_value rows with [] => Err ValueError | l => Ok l end else Err TypeError.
Proof.
  intros H N. unfold sort_rows.
  assert (str_in sort_by ["AIC"; "aic"; "aicc"; "AICc"]%string = false) as ->.
  { apply not_true_iff_false. intros E. apply N. unfold str_in in E. apply existsb_exists in E. destruct E as (x & Hx & E). apply String.eqb_eq in E. now subst. }
  cbn [andb]. cbv zeta. simpl in H.
  repeat destruct H as [H|H]; try contradiction; rewrite <- H;
    match goal with |- context [String.eqb ?a "BIC"] => change (String.eqb a "BIC") with false; change (str_in a ["AICC"; "AIC"]%string) with true end; cbv iota;
    destruct (_ || _); try reflexivity; cbn [bind]; destruct (sort _ rows); reflexivity.
Qed.

(** ** Data checks *)
Lemma neq_true a b : Rneqb a b = true <-> a <> b.
Proof. unfold Rneqb. destruct (Req_EM_T a b); split; congruence. Qed.
Lemma ltb'_iff a b : Rltb' a b = true <-> a < b.
Proof. unfold Rltb'. destruct (Rlt_dec a b); split; congruence || lra. Qed.
Lemma existsb_false_iff {A} (f : A -> bool) l : existsb f l = false <-> forall x, In x l -> f x = false.
Proof.
  split.
  - intros H x Hx. apply not_true_iff_false. intros E. apply not_true_iff_false in H. apply H. apply existsb_exists. eauto.
  - intros H. apply not_true_iff_false. intros E. apply existsb_exists in E. destruct E as (x & Hx & E). rewrite (H x Hx) in E. discriminate.
Qed.
Lemma everything_checked failures rc f c : check_data D_Everything false failures rc = Ok (f, c) ->
  Forall (Rlt 0) f /\ Forall (Rlt 0) c /\ (2 <= unique_count f)%nat.
Proof.
  unfold check_data. destruct (length (failures ++ rc) =? 0)%nat; [discriminate|]. destruct (existsb _ _) eqn:E; [discriminate|]. cbn [dname_eqb andb bind fst].
  destruct (Nat.ltb_spec (unique_count (filter (fun t => Rneqb t 0) failures)) (min_failures D_Everything false)) as [|L]; [discriminate|]. intros [= <- <-]. cbn [min_failures] in L.
  assert (forall t, In t (failures ++ rc) -> Rneqb t 0 = true -> 0 < t) as P.
  { intros t Ht N. apply neq_true in N. rewrite existsb_false_iff in E. specialize (E t Ht). destruct (Rlt_dec t 0) as [H|H]; [apply ltb'_iff in H; congruence|]. lra. }
  split; [|split; [|exact L]]; apply Forall_forall; intros t Ht; apply filter_In in Ht; destruct Ht as [Ht N]; apply P; try exact N; apply in_or_app; tauto.
Qed.
Lemma filter_all {A} (g : A -> bool) l : (forall x, In x l -> g x = true) -> filter g l = l.
Proof. induction l as [|a l IH]; intros H; [reflexivity|]. simpl. rewrite (H a (or_introl eq_refl)), IH; [reflexivity|]. intros; apply H; now right. Qed.
Lemma unique_count_pos_ne f : (1 <= unique_count f)%nat -> f <> [].
Proof. intros H ->. cbn in H. lia. Qed.

(** On checked data a fitter only counts the distinct failures. *)
Lemma check_positive d f c : Forall (Rlt 0) f -> Forall (Rlt 0) c -> (d = D_Beta_2P -> Forall (fun t => t < 1) (f ++ c)) -> (1 <= unique_count f)%nat ->
  check_data d false f c = if (unique_count f <? min_failures d false)%nat then Err ValueError else Ok (f, c).
Proof.
  intros Hf Hc Hb H1. rewrite Forall_forall in Hf, Hc. assert (forall t, In t (f ++ c) -> 0 < t) as Ha by (intros t Ht; apply in_app_or in Ht; destruct Ht; auto).
  unfold check_data.
  assert ((length (f ++ c) =? 0)%nat = false) as E0 by (apply Nat.eqb_neq; rewrite app_length; apply unique_count_pos_ne in H1; destruct f; [congruence|simpl; lia]).
  assert (existsb (fun t => Rltb' t 0) (f ++ c) = false) as E1 by (apply existsb_false_iff; intros t Ht; apply not_true_iff_false; intros E; apply ltb'_iff in E; specialize (Ha t Ht); lra).
  assert (filter (fun t => Rneqb t 0) f = f) as E2 by (apply filter_all; intros t Ht; apply neq_true; specialize (Hf t Ht); lra).
  assert (filter (fun t => Rneqb t 0) c = c) as E3 by (apply filter_all; intros t Ht; apply neq_true; specialize (Hc t Ht); lra).
  rewrite E0, E1, E2, E3. destruct d; try reflexivity. cbn [dname_eqb andb].
  specialize (Hb eq_refl). rewrite Forall_forall in Hb.
  assert (existsb (fun t => Rltb' 1 t) (f ++ c) = false) as -> by (apply existsb_false_iff; intros t Ht; apply not_true_iff_false; intros E; apply ltb'_iff in E; specialize (Hb t Ht); lra).
  rewrite !filter_all; [reflexivity| |]; intros t Ht; apply neq_true; assert (t < 1) by (apply Hb, in_or_app; tauto); lra.
Qed.

Lemma dname_eqb_eq a b : dname_eqb a b = true <-> a = b.
Proof. split; [|intros ->; destruct b; reflexivity]. destruct a, b; cbn; intros H; try discriminate; reflexivity. Qed.
Lemma dmem_In d l : dmem d l = true <-> In d l.
Proof.
  unfold dmem. rewrite existsb_exists. split.
  - intros (x & Hx & E). apply dname_eqb_eq in E. now subst.
  - intros H. exists d. split; [exact H|]. now apply dname_eqb_eq.
Qed.
Lemma to_fit_In ex f c d : In d (to_fit ex f c) <-> In d all_dists /\ ~ In d (excluded ex f c).
Proof. unfold to_fit. rewrite filter_In, negb_true_iff. rewrite <- (dmem_In d (excluded ex f c)). destruct (dmem d (excluded ex f c)); intuition congruence. Qed.
Lemma beta_below_one ex f c : In D_Beta_2P (to_fit ex f c) -> Forall (fun t => t < 1) (f ++ c).
Proof.
  rewrite to_fit_In. intros [_ N]. unfold excluded in N. destruct (dmem D_Beta_2P (recognised (extend_exclude ex f))) eqn:E1.
  - exfalso. apply N. now apply dmem_In.
  - destruct (existsb _ (f ++ c)) eqn:E2.
    + exfalso. apply N. apply in_or_app. right. now left.
    + rewrite existsb_false_iff in E2. apply Forall_forall. intros t Ht. specialize (E2 t Ht). cbv beta in E2. destruct (Rle_dec 1 t); [discriminate|lra].
Qed.
Lemma recognised_app a b : recognised (a ++ b) = recognised a ++ recognised b.
Proof. induction a as [|s a IH]; [reflexivity|]. simpl. destruct (exclusion s); [simpl; now rewrite IH|exact IH]. Qed.
Lemma recognised_few : recognised too_few_excluded = [D_Weibull_3P; D_Gamma_3P; D_Loglogistic_3P; D_Lognormal_3P; D_Weibull_Mixture; D_Weibull_CR].
Proof. vm_compute. reflexivity. Qed.
Lemma few_excluded ex f c d : (length f < 3)%nat -> In d [D_Weibull_3P; D_Gamma_3P; D_Loglogistic_3P; D_Lognormal_3P; D_Weibull_Mixture; D_Weibull_CR] -> ~ In d (to_fit ex f c).
Proof.
  intros Hf Hd. rewrite to_fit_In. intros [_ N]. apply N. assert (In d (recognised (extend_exclude ex f))) as H.
  { unfold extend_exclude. rewrite (proj2 (Nat.ltb_lt _ _) Hf), recognised_app, recognised_few. apply in_or_app. now right. }
  unfold excluded. destruct (dmem _ _); [exact H|]. destruct (existsb _ _); [apply in_or_app; now left|exact H].
Qed.

(** Fitters other than the two with groups. *)
Lemma single_accepts kde ex f c d : Forall (Rlt 0) f -> Forall (Rlt 0) c -> (1 <= unique_count f)%nat -> In d (to_fit ex f c) ->
  d <> D_Weibull_Mixture -> d <> D_Weibull_CR ->
  fitter_accepts kde d f c = if (unique_count f <? min_failures d false)%nat then Err ValueError else Ok tt.
Proof.
  intros Hf Hc H1 Hd N1 N2. unfold fitter_accepts. rewrite check_positive by (try assumption; intros ->; eapply beta_below_one; exact Hd).
  destruct (_ <? _)%nat; [reflexivity|]. cbn [bind]. destruct d; congruence || reflexivity.
Qed.

(** ** The two groups *)
Lemma unique_NoDup l : NoDup l -> unique_count l = length l.
Proof. intros H. unfold unique_count. now rewrite nodup_fixed_point. Qed.
Lemma unique_ge l m : NoDup m -> incl m l -> (length m <= unique_count l)%nat.
Proof. intros Hm Hi. unfold unique_count. apply NoDup_incl_length; [exact Hm|]. intros x Hx. apply nodup_In, Hi, Hx. Qed.
Lemma unique_le_length l : (unique_count l <= length l)%nat.
Proof. unfold unique_count. apply NoDup_incl_length; [apply NoDup_nodup|]. intros x Hx. now apply nodup_In in Hx. Qed.
Lemma filter_split_length {A} (g : A -> bool) l : (length (filter g l) + length (filter (fun x => negb (g x)) l) = length l)%nat.
Proof. induction l as [|a l IH]; [reflexivity|]. simpl. destruct (g a); simpl; lia. Qed.
Lemma isort_strict l : NoDup l -> StronglySorted Rlt (isort Rleb l).
Proof.
  intros H. pose proof (isort_R_sorted l) as S. assert (NoDup (isort Rleb l)) as N by (apply (Permutation_NoDup (isort_perm Rleb l)); exact H).
  induction S as [|a s S IH HF]; [constructor|]. inversion N as [|? ? N1 N2]; subst. constructor; [now apply IH|].
  rewrite Forall_forall in *. intros x Hx. specialize (HF x Hx). destruct (Req_EM_T a x) as [->|]; [contradiction|lra].
Qed.
Lemma last_four {A} (l : list A) : (4 <= length l)%nat -> exists r a b c d, l = r ++ [a; b; c; d].
Proof.
  intros H. assert (l = rev (rev l)) as E by now rewrite rev_involutive. rewrite <- rev_length in H. destruct (rev l) as [|d [|c [|b [|a r]]]]; simpl in H; try lia.
  exists (rev r), a, b, c, d. rewrite E. simpl. rewrite <- !app_assoc. reflexivity.
Qed.
Lemma sorted_app_r (r s : list R) : StronglySorted Rlt (r ++ s) -> StronglySorted Rlt s.
Proof. induction r as [|a r IH]; intros H; [exact H|]. inversion H; subst. now apply IH. Qed.
Lemma group_two dl f m g : (g = group_1 \/ g = group_2) -> NoDup m -> (2 <= length m)%nat -> incl m (g dl f) -> (2 <= unique_count (g dl f))%nat.
Proof. intros _ Hm H2 Hi. pose proof (unique_ge _ _ Hm Hi). lia. Qed.
Lemma NoDup2 (a b : R) : a < b -> NoDup [a; b].
Proof. intros H. constructor; [intros [E|[]]; lra|]. constructor; [intros []|constructor]. Qed.

Lemma groups_distinct dl0 f : NoDup f -> (4 <= length f)%nat ->
  (2 <= unique_count (group_1 (group_line dl0 f) f))%nat /\ (2 <= unique_count (group_2 (group_line dl0 f) f))%nat.
Proof.
  intros HN H4. set (s := isort Rleb f). assert (length s = length f) as Hls by apply isort_length.
  assert (StronglySorted Rlt s) as HS by now apply isort_strict. assert (forall x, In x s <-> In x f) as HI.
  { intros x. split; intros H; [apply (Permutation_in _ (Permutation_sym (isort_perm Rleb f)))|apply (Permutation_in _ (isort_perm Rleb f))]; exact H. }
  assert (forall a b c d, a < b -> b < c -> c < d -> In a s -> In b s -> In c s -> In d s ->
     let L := (b + c) / 2 in (2 <= unique_count (group_1 L f))%nat /\ (2 <= unique_count (group_2 L f))%nat) as K.
  { intros a b c d H1 H2 H3 Ia Ib Ic Id L. split.
    - apply (unique_ge _ [a; b]); [now apply NoDup2|]. intros x [<-|[<-|[]]]; apply filter_In; (split; [now apply HI|apply ltb'_iff; unfold L; lra]).
    - apply (unique_ge _ [c; d]); [now apply NoDup2|]. intros x [<-|[<-|[]]]; apply filter_In; (split; [now apply HI|]); apply negb_true_iff, not_true_iff_false; rewrite ltb'_iff; unfold L; lra. }
  pose proof (filter_split_length (fun t => Rltb' t dl0) f) as HC. set (n1 := length (filter (fun t => Rltb' t dl0) f)) in *.
  unfold group_line. fold n1. fold s. cbv zeta. destruct (Nat.ltb_spec (length f - n1) 2) as [G2|G2].
  - destruct (last_four s) as (r & a & b & c & d & E); [lia|]. rewrite E, app_length. cbn [length].
    replace (length r + 4 - 2)%nat with (length r + 2)%nat by lia. replace (length r + 4 - 3)%nat with (length r + 1)%nat by lia.
    rewrite !app_nth2_plus. cbn [nth]. rewrite (Rplus_comm c b).
    assert (StronglySorted Rlt [a; b; c; d]) as S4 by (apply (sorted_app_r r); rewrite <- E; exact HS).
    inversion S4 as [|? ? S3 F1]; subst. inversion S3 as [|? ? S2 F2]; subst. inversion S2 as [|? ? S1 F3]; subst. rewrite Forall_forall in F1, F2, F3.
    apply (K a b c d); try (apply F1; simpl; tauto); try (apply F2; simpl; tauto); try (apply F3; simpl; tauto); rewrite E; apply in_or_app; right; simpl; tauto.
  - destruct (Nat.ltb_spec n1 2) as [G1|G1].
    + destruct s as [|a [|b [|c [|d r]]]] eqn:E; try (simpl in Hls; lia). cbn [nth].
      inversion HS as [|? ? S3 F1]; subst. inversion S3 as [|? ? S2 F2]; subst. inversion S2 as [|? ? S1 F3]; subst. rewrite Forall_forall in F1, F2, F3.
      apply (K a b c d); try (apply F1; simpl; tauto); try (apply F2; simpl; tauto); try (apply F3; simpl; tauto); simpl; tauto.
    + split.
      * rewrite unique_NoDup by now apply NoDup_filter. unfold group_1. exact G1.
      * rewrite unique_NoDup by now apply NoDup_filter. unfold group_2. lia.
Qed.
Lemma Forall_filter {A} (Q : A -> Prop) g l : Forall Q l -> Forall Q (filter g l).
Proof. rewrite !Forall_forall. intros H x Hx. apply filter_In in Hx. now apply H. Qed.
Lemma grouped_accepts kde d f c : Forall (Rlt 0) f -> Forall (Rlt 0) c -> NoDup f -> (4 <= length f)%nat -> (d = D_Weibull_Mixture \/ d = D_Weibull_CR) ->
  fitter_accepts kde d f c = Ok tt.
Proof.
  intros Hf Hc HN H4 Hd. unfold fitter_accepts. rewrite check_positive; try assumption; [|intros ->; destruct Hd; discriminate|rewrite unique_NoDup by exact HN; lia].
  assert ((unique_count f <? min_failures d false)%nat = false) as ->.
  { apply Nat.ltb_ge. rewrite unique_NoDup by exact HN. destruct Hd as [-> | ->]; exact H4. }
  cbn [bind fst snd]. destruct (groups_distinct (kde f) f HN H4) as [G1 G2]. set (dl := group_line (kde f) f) in *.
  assert (check_data D_Weibull_2P false (group_1 dl f) (group_1 dl c) = Ok (group_1 dl f, group_1 dl c)) as E1.
  { rewrite check_positive; try (apply Forall_filter; assumption); [|discriminate|lia]. cbn [min_failures]. now rewrite (proj2 (Nat.ltb_ge _ _) G1). }
  assert (check_data D_Weibull_2P false (group_2 dl f) (group_2 dl c) = Ok (group_2 dl f, group_2 dl c)) as E2.
  { rewrite check_positive; try (apply Forall_filter; assumption); [|discriminate|lia]. cbn [min_failures]. now rewrite (proj2 (Nat.ltb_ge _ _) G2). }
  destruct Hd as [-> | ->]; rewrite E1; cbn [bind]; rewrite E2; reflexivity.
Qed.

Lemma min_failures_bound d : (min_failures d false <= 2)%nat \/ In d [D_Weibull_3P; D_Gamma_3P; D_Loglogistic_3P; D_Lognormal_3P; D_Weibull_Mixture; D_Weibull_CR].
Proof. destruct d; cbn; intuition lia. Qed.
Lemma min_failures_3 d : d <> D_Weibull_Mixture -> d <> D_Weibull_CR -> (min_failures d false <= 3)%nat.
Proof. destruct d; cbn; intros; lia || congruence. Qed.

Theorem everything_accepts kde ex failures rc f c d : check_data D_Everything false failures rc = Ok (f, c) ->
  NoDup f -> (length f = 2 \/ 4 <= length f)%nat -> In d (to_fit ex f c) -> fitter_accepts kde d f c = Ok tt.
Proof.
  intros H HN HL Hd. destruct (everything_checked _ _ _ _ H) as (Hf & Hc & H2).
  destruct (dname_eqb d D_Weibull_Mixture || dname_eqb d D_Weibull_CR) eqn:E.
  - assert (d = D_Weibull_Mixture \/ d = D_Weibull_CR) as Hd' by (apply orb_true_iff in E; rewrite !dname_eqb_eq in E; exact E).
    destruct HL as [HL|HL].
    + exfalso. apply (few_excluded ex f c d); [lia| |exact Hd]. simpl. intuition.
    + now apply grouped_accepts.
  - apply orb_false_iff in E. destruct E as [E1 E2]. rewrite (single_accepts kde ex); try assumption; try lia;
      [|intros ->; discriminate|intros ->; discriminate].
    assert ((unique_count f <? min_failures d false)%nat = false) as ->; [|reflexivity]. apply Nat.ltb_ge.
    destruct (min_failures_bound d) as [B|B]; [lia|]. destruct HL as [HL|HL].
    + exfalso. apply (few_excluded ex f c d); [lia|exact B|exact Hd].
    + rewrite unique_NoDup by exact HN. assert (min_failures d false <= 3)%nat; [|lia]. apply min_failures_3; intros ->; discriminate.
Qed.

Lemma fit_all_ok kde fit ds f c : (forall d, In d ds -> fitter_accepts kde d f c = Ok tt) -> fit_all kde fit ds f c = Ok (map fit ds).
Proof. induction ds as [|d ds IH]; intros H; [reflexivity|]. cbn [fit_all map]. rewrite (H d (or_introl eq_refl)), IH by (intros; apply H; now right). reflexivity. Qed.
Lemma fit_all_value kde fit ds f c rows : fit_all kde fit ds f c = Ok rows -> rows = map fit ds.
Proof.
  revert rows. induction ds as [|d ds IH]; intros rows H; cbn [fit_all] in H; [now injection H as <-|].
  apply bind_ok in H. destruct H as (u & _ & H). apply bind_ok in H. destruct H as (r & H1 & H2). injection H2 as <-. cbn [map]. now rewrite (IH r H1).
Qed.
Lemma fit_all_err kde fit ds f c d e : In d ds -> fitter_accepts kde d f c = Err e ->
  (forall d' e', fitter_accepts kde d' f c = Err e' -> e' = ValueError) -> fit_all kde fit ds f c = Err ValueError.
Proof.
  intros Hd He HV. induction ds as [|d0 ds IH]; [contradiction|]. cbn [fit_all]. destruct (fitter_accepts kde d0 f c) as [u|e0] eqn:E.
  - cbn [bind]. destruct Hd as [->|Hd]; [congruence|]. rewrite (IH Hd). reflexivity.
  - cbn [bind]. now rewrite (HV d0 e0 E).
Qed.
Lemma check_err d fo f c e : check_data d fo f c = Err e -> e = ValueError.
Proof.
  unfold check_data. intros H.
  repeat match type of H with
  | bind ?r _ = _ => let E := fresh in destruct r eqn:E; cbn [bind] in H; [|injection H as <-; rename E into H]
  | (if ?b then _ else _) = _ => destruct b
  | match ?d with _ => _ end = _ => destruct d
  | Ok _ = _ => discriminate
  | Err _ = _ => injection H as <-; reflexivity
  end.
Qed.
Lemma accepts_err kde d f c e : fitter_accepts kde d f c = Err e -> e = ValueError.
Proof.
  unfold fitter_accepts. destruct (check_data d false f c) as [p|e0] eqn:E; cbn [bind].
  2: { intros [= <-]. eapply check_err; exact E. }
  destruct d; try discriminate; cbv zeta.
  all: destruct (check_data D_Weibull_2P false (group_1 _ _) _) as [p1|e1] eqn:E1; cbn [bind]; [|intros [= <-]; eapply check_err; exact E1].
  all: destruct (check_data D_Weibull_2P false (group_2 _ _) _) as [p2|e2] eqn:E2; cbn [bind]; [discriminate|intros [= <-]; eapply check_err; exact E2].
Qed.

(** With at least 3 failures but fewer than 4 different ones the default call is rejected. *)
Theorem everything_rejects kde fit sort sort_by failures rc f c : check_data D_Everything false failures rc = Ok (f, c) ->
  (3 <= length f)%nat -> (unique_count f < 4)%nat -> Fit_Everything kde fit sort [] sort_by failures rc = Err ValueError.
Proof.
  intros H H3 HU. destruct (everything_checked _ _ _ _ H) as (Hf & Hc & H2). unfold Fit_Everything. rewrite H. cbn [bind fst snd].
  assert (In D_Weibull_Mixture (to_fit [] f c)) as HM.
  { rewrite to_fit_In. split; [cbn; tauto|]. unfold excluded, extend_exclude. rewrite (proj2 (Nat.ltb_ge _ _) H3). cbn [recognised dmem existsb].
    destruct (existsb _ _); cbn; intuition discriminate. }
  rewrite (fit_all_err kde fit _ f c D_Weibull_Mixture ValueError HM); [reflexivity| |intros d' e' E; eapply accepts_err; exact E].
  unfold fitter_accepts. rewrite check_positive by (try assumption; try discriminate; lia). cbn [min_failures]. rewrite (proj2 (Nat.ltb_lt _ _) HU). reflexivity.
Qed.
(** A group with a single value is rejected, even when the failures take four values. *)
Theorem mixture_rejects kde d f c : (d = D_Weibull_Mixture \/ d = D_Weibull_CR) -> Forall (Rlt 0) f -> Forall (Rlt 0) c ->
  (2 <= length (group_1 (kde f) f))%nat -> (2 <= length (group_2 (kde f) f))%nat ->
  (unique_count (group_1 (kde f) f) < 2)%nat \/ (unique_count (group_2 (kde f) f) < 2)%nat -> fitter_accepts kde d f c = Err ValueError.
Proof.
  intros Hd Hf Hc H1 H2 HU. destruct (fitter_accepts kde d f c) as [u|e] eqn:E; [|f_equal; eapply accepts_err; exact E]. exfalso.
  unfold fitter_accepts in E. apply bind_ok in E. destruct E as (p & E1 & E2).
  assert (f <> []) as Hne by (intros ->; cbn in H1; lia).
  assert (1 <= unique_count f)%nat as HU1 by (destruct f as [|t f']; [congruence|]; apply (unique_ge _ [t]); [repeat constructor; intros []|intros x [<-|[]]; now left]).
  rewrite check_positive in E1; try assumption; [|intros ->; destruct Hd; discriminate]. destruct (_ <? _)%nat; [discriminate|]. injection E1 as <-. cbn [fst snd] in E2.
  assert (group_line (kde f) f = kde f) as EL.
  { unfold group_line. pose proof (filter_split_length (fun t => Rltb' t (kde f)) f) as HC. unfold group_1, group_2 in *.
    destruct (Nat.ltb_spec (length f - length (filter (fun t => Rltb' t (kde f)) f)) 2); [lia|]. destruct (Nat.ltb_spec (length (filter (fun t => Rltb' t (kde f)) f)) 2); [lia|reflexivity]. }
  assert (forall g, (g = group_1 \/ g = group_2) -> (2 <= length (g (kde f) f))%nat -> (unique_count (g (kde f) f) < 2)%nat -> check_data D_Weibull_2P false (g (kde f) f) (g (kde f) c) = Err ValueError) as K.
  { intros g Hg Hl Hu. rewrite check_positive; [cbn [min_failures]; now rewrite (proj2 (Nat.ltb_lt _ _) Hu)| | |discriminate|].
    - destruct Hg as [-> | ->]; now apply Forall_filter.
    - destruct Hg as [-> | ->]; now apply Forall_filter.
    - destruct (g (kde f) f) as [|t l]; [cbn in Hl; lia|]. apply (unique_ge _ [t]); [repeat constructor; intros []|intros x [<-|[]]; now left]. }
  destruct Hd as [-> | ->]; rewrite EL in E2; apply bind_ok in E2; destruct E2 as (p1 & E1 & E2); apply bind_ok in E2; destruct E2 as (p2 & E2 & _);
    (destruct HU as [HU|HU]; [rewrite K in E1 by auto; discriminate|rewrite K in E2 by auto; discriminate]).
Qed.

(** ** Optimizers *)
Section Opt.
  Context {P : Type} (minimize : opt -> P -> bool * P) (LL_func : P -> R).
  Lemma runs_spec o : forall left guess last r, mle_runs minimize LL_func left o guess last = r ->
    exists k, (1 <= k <= Nat.max 1 left)%nat /\ (fst (fst r), snd r) = rerun (minimize o) k guess /\ snd (fst r) = Rabs (2 * LL_func (snd r)).
  Proof.
    induction left as [|left IH]; intros guess last r H; cbn [mle_runs] in H; destruct (minimize o guess) as [ok x] eqn:E.
    - subst r. exists 1%nat. split; [lia|]. cbn [fst snd rerun]. now rewrite E.
    - destruct left as [|left].
      + subst r. exists 1%nat. split; [lia|]. cbn [fst snd rerun]. now rewrite E.
      + destruct (Rlt_dec _ _).
        * destruct (IH x _ r H) as (k & Hk & H1 & H2). exists (S k). split; [lia|]. split; [|exact H2]. rewrite H1. destruct k as [|k]; [lia|]. cbn [rerun]. now rewrite E.
        * subst r. exists 1%nat. split; [lia|]. cbn [fst snd rerun]. now rewrite E.
  Qed.
  Lemma attempts_In stop os guess a : In a (attempts minimize LL_func stop os guess) ->
    In (fst a) os /\ snd a = loglik_optimizer minimize LL_func (fst a) guess.
  Proof.
    induction os as [|o os IH]; [intros []|]. cbn [attempts]. destruct (_ && _).
    - intros [<-|[]]. split; [now left|reflexivity].
    - intros [<-|H]; [split; [now left|reflexivity]|]. destruct (IH H). split; [now right|assumption].
  Qed.
  Lemma first_min_spec : forall l best, In (first_min best l) (best :: l) /\ forall a, In a (best :: l) -> a_LL (P := P) (first_min best l) <= a_LL a.
  Proof.
    induction l as [|a l IH]; intros best; cbn [first_min].
    - split; [now left|]. intros a [<-|[]]. lra.
    - destruct (IH (if Rlt_dec (a_LL a) (a_LL best) then a else best)) as [H1 H2]. destruct (Rlt_dec (a_LL a) (a_LL best)) as [L|L]; split.
      + destruct H1 as [<-|H1]; [right; now left|right; now right].
      + intros b [<-|[<-|Hb]]; [|apply H2; now left|apply H2; now right]. specialize (H2 a (or_introl eq_refl)). lra.
      + destruct H1 as [<-|H1]; [now left|right; now right].
      + intros b [<-|[<-|Hb]]; [apply H2; now left| |apply H2; now right]. specialize (H2 best (or_introl eq_refl)). lra.
  Qed.
  Definition tried (optimizer : option string) (os : list opt) (guess : P) :=
    attempts minimize LL_func (match optimizer with None => true | Some _ => false end) os guess.
  Lemma mle_spec optimizer guess r : MLE_optimization minimize LL_func optimizer guess = Ok r ->
    exists os, optimizers_to_try optimizer = Ok os /\
      ((exists o x, r = (true, Some o, x) /\
         (exists a, In a (tried optimizer os guess) /\ a_ok a = true /\ fst a = o /\ a_x a = x) /\
         forall a, In a (tried optimizer os guess) -> a_ok a = true -> Rabs (LL_func x) <= Rabs (LL_func (a_x a))) \/
       (r = (false, None, guess) /\ forall a, In a (tried optimizer os guess) -> a_ok a = false)).
  Proof.
    unfold MLE_optimization. intros H. apply bind_ok in H. destruct H as (os & H1 & H2). exists os. split; [exact H1|]. cbv zeta in H2. fold (tried optimizer os guess) in H2.
    assert (forall a, In a (tried optimizer os guess) -> a_LL a = Rabs (2 * LL_func (a_x a))) as HLL.
    { intros a Ha. destruct (attempts_In _ _ _ _ Ha) as [_ E]. unfold loglik_optimizer in E. destruct (runs_spec _ _ _ _ _ (eq_sym E)) as (k & _ & _ & E2). exact E2. }
    destruct (filter a_ok (tried optimizer os guess)) as [|a l] eqn:EF.
    - right. injection H2 as <-. split; [reflexivity|]. intros a Ha. apply not_true_iff_false. intros E. assert (In a []) as []. rewrite <- EF. now apply filter_In.
    - left. injection H2 as <-. destruct (first_min_spec l a) as [F1 F2]. set (b := first_min a l) in *. exists (fst b), (a_x b). split; [reflexivity|].
      rewrite <- EF in F1, F2. apply filter_In in F1. destruct F1 as [F1 Fok]. split; [exists b; auto|].
      intros a' Ha' Hok. specialize (F2 a' (proj2 (filter_In _ _ _) (conj Ha' Hok))). rewrite !HLL in F2 by assumption. rewrite !Rabs_mult in F2. rewrite (Rabs_right 2) in F2 by lra. lra.
  Qed.
  Lemma attempts_all os guess : attempts minimize LL_func false os guess = map (fun o => (o, loglik_optimizer minimize LL_func o guess)) os.
  Proof. induction os as [|o os IH]; [reflexivity|]. cbn [attempts map]. now rewrite andb_false_r, IH. Qed.
  (** With the default the first success is final. *)
  Lemma attempts_stop os guess a : In a (attempts minimize LL_func true os guess) -> a_ok a = true ->
    exists pre post, os = pre ++ fst a :: post /\ (forall o, In o pre -> fst (fst (loglik_optimizer minimize LL_func o guess)) = false).
  Proof.
    induction os as [|o os IH]; [intros []|]. cbn [attempts]. rewrite andb_true_r. destruct (fst (fst (loglik_optimizer minimize LL_func o guess))) eqn:E.
    - intros [<-|[]] _. exists [], os. split; [reflexivity|intros ? []].
    - intros [<-|H] Hok; [unfold a_ok in Hok; cbn [fst snd] in Hok; congruence|]. destruct (IH H Hok) as (pre & post & -> & Hp). exists (o :: pre), post. split; [reflexivity|].
      intros o' [<-|Ho']; [exact E|now apply Hp].
  Qed.
End Opt.
