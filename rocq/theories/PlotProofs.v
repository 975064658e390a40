(** Proofs about the goodness of fit statistic and the plotting helpers. *)
From Coquelicot Require Import Coquelicot.
From Coq Require Import String.
From Coq Require Import List Arith Reals Lra Lia Bool ZArith Sorted Permutation.
From Verif Require Import Base RealFacts Gauss Ext RList Improper ConvertModel RepairModel RepairProofs RepairProofs2 TestingModel TestingProofs DistModel DistSpec DistProofs DistProofs2
  PoFProofs PoFProofs2 CombProofs RegProofs SelModel CIModel CISpec CIProofs CIProofs2 PlotModel PlotSpec.
Import ListNotations.
Open Scope R_scope.

(** ** Anderson-Darling *)
Definition le_b (z zi : R) : bool := if Rle_dec zi z then true else false.
Fixpoint ad_sum (z1 lz1 p : R) (Z F : list R) : R :=
  match Z with
  | [] => ad_term ad_end z1 lz1 p
  | z :: Z' => ad_term z z1 lz1 p + ad_sum z (ln z) (hd 0 F) Z' (tl F)
  end.
Lemma ad_sum_eq Z : forall z1 lz1 p F,
  rsum (map (fun i => ad_term (nth i (Z ++ [ad_end]) 0) (nth i (z1 :: Z) 0) (nth i (lz1 :: map ln Z) 0) (nth i (p :: F) 0)) (seq 0 (S (length Z)))) = ad_sum z1 lz1 p Z F.
Proof.
  induction Z as [|z Z IH]; intros z1 lz1 p F.
  - simpl. unfold rsum. simpl. ring.
  - cbn [length]. change (seq 0 (S (S (length Z)))) with (0%nat :: seq 1 (S (length Z))). rewrite <- seq_shift, map_cons, rsum_cons, map_map. cbn [ad_sum]. f_equal.
    rewrite <- (IH z (ln z) (hd 0 F) (tl F)). f_equal. apply map_ext. intros i. cbn [nth app map].
    destruct F as [|f F]; [|reflexivity]. cbn [hd tl]. f_equal. destruct i as [|i]; [reflexivity|]. destruct i; reflexivity.
Qed.
Lemma removelast_snoc {A} (x : A) l e : removelast (x :: l ++ [e]) = x :: l.
Proof. change (x :: l ++ [e]) with ((x :: l) ++ [e]). apply removelast_last. Qed.

Definition ad_integrand (p z : R) : R := (p - z) ^ 2 / (z * (1 - z)).
Lemma ad_piece p a b : 0 < a -> a <= b -> b < 1 -> is_RInt (ad_integrand p) a b (ad_term b a (ln a) p).
Proof.
  intros Ha Hab Hb.
  replace (ad_term b a (ln a) p) with (minus ((fun z => - z + p ^ 2 * ln z - (1 - p) ^ 2 * ln (1 - z)) b) ((fun z => - z + p ^ 2 * ln z - (1 - p) ^ 2 * ln (1 - z)) a)).
  2:{ unfold minus, plus, opp; simpl. unfold ad_term. ring. }
  apply (is_RInt_derive (V := R_CompleteNormedModule) (fun z => - z + p ^ 2 * ln z - (1 - p) ^ 2 * ln (1 - z)) (ad_integrand p)).
  - intros x Hx. rewrite Rmin_left, Rmax_right in Hx by lra. unfold ad_integrand. auto_derive; [split; [lra|split; [lra|exact I]]|]. field. lra.
  - intros x Hx. rewrite Rmin_left, Rmax_right in Hx by lra. unfold ad_integrand. apply (ex_derive_continuous (V := R_NormedModule)). auto_derive. nra.
Qed.
Lemma ad_first b : 0 <= b < 1 -> is_RInt (ad_integrand 0) 0 b (ad_term b 0 0 0).
Proof.
  intros Hb. apply (is_RInt_ext (fun z => z / (1 - z))).
  { intros x Hx. rewrite Rmin_left, Rmax_right in Hx by lra. as_R. unfold ad_integrand. field. lra. }
  replace (ad_term b 0 0 0) with (minus ((fun z => - z - ln (1 - z)) b) ((fun z => - z - ln (1 - z)) 0)).
  2:{ unfold minus, plus, opp; simpl. unfold ad_term. rewrite Rminus_0_r, ln_1. ring. }
  apply (is_RInt_derive (V := R_CompleteNormedModule) (fun z => - z - ln (1 - z)) (fun z => z / (1 - z))).
  - intros x Hx. rewrite Rmin_left, Rmax_right in Hx by lra. auto_derive; [lra|]. field. lra.
  - intros x Hx. rewrite Rmin_left, Rmax_right in Hx by lra. apply (ex_derive_continuous (V := R_NormedModule)). auto_derive. lra.
Qed.
Definition steps (p : R) (Z F : list R) (z : R) : R := nth (length (filter (le_b z) Z)) (p :: F) 0.
Lemma steps_before p Z F z : Forall (fun zi => z < zi) Z -> steps p Z F z = p.
Proof.
  intros H. unfold steps. replace (filter (le_b z) Z) with (@nil R); [reflexivity|]. symmetry. induction H as [|x Z Hx H IH]; [reflexivity|]. simpl. unfold le_b at 1.
  destruct (Rle_dec x z); [lra|exact IH].
Qed.
Lemma steps_after p z1 Z F z : z1 <= z -> steps p (z1 :: Z) F z = steps (hd 0 F) Z (tl F) z.
Proof.
  intros H. unfold steps. simpl filter. unfold le_b at 1. destruct (Rle_dec z1 z); [|lra]. cbn [length nth]. destruct F as [|f F]; [|reflexivity].
  cbn [hd tl]. destruct (length _) as [|[|n]]; reflexivity.
Qed.
Lemma ad_end_range : 0 < ad_end < 1.
Proof. unfold ad_end. assert (0 < / 10 ^ 12 < 1); [|lra]. split; [apply Rinv_0_lt_compat, pow_lt; lra|]. rewrite <- Rinv_1. apply Rinv_lt_contravar; [|]; simpl; lra. Qed.
Lemma ad_integral Z : forall a p F, 0 < a -> a <= ad_end -> StronglySorted Rle (a :: Z) -> Forall (fun z => z <= ad_end) Z ->
  is_RInt (fun z => ad_integrand (steps p Z F z) z) a ad_end (ad_sum a (ln a) p Z F).
Proof.
  pose proof ad_end_range as He. induction Z as [|z Z IH]; intros a p F Ha Hae HS HF.
  - apply ad_piece; lra.
  - inversion HS as [|? ? HS1 HS2]; subst. inversion HF as [|? ? Hz HF']; subst. inversion HS2 as [|? ? Haz _]; subst. inversion HS1 as [|? ? HS3 HS4]; subst.
    cbn [ad_sum]. apply (is_RInt_Chasles (V := R_NormedModule) (fun z0 => ad_integrand (steps p (z :: Z) F z0) z0) a z ad_end).
    + apply (is_RInt_ext (ad_integrand p)); [|apply ad_piece; lra]. intros x Hx. rewrite Rmin_left, Rmax_right in Hx by lra. rewrite steps_before; [reflexivity|].
      constructor; [lra|]. eapply Forall_impl; [|exact HS4]. intros y Hy. simpl in Hy. lra.
    + apply (is_RInt_ext (fun z0 => ad_integrand (steps (hd 0 F) Z (tl F) z0) z0)).
      * intros x Hx. rewrite Rmin_left, Rmax_right in Hx by lra. rewrite steps_after; [reflexivity|lra].
      * apply IH; [lra|lra|exact HS1|exact HF'].
Qed.
Lemma ad_integral_0 Z F : StronglySorted Rle Z -> Forall (fun z => 0 < z <= ad_end) Z ->
  is_RInt (fun z => ad_integrand (steps 0 Z F z) z) 0 ad_end (ad_sum 0 0 0 Z F).
Proof.
  pose proof ad_end_range as He. intros HS HF. destruct Z as [|z Z].
  - apply ad_first. lra.
  - inversion HF as [|? ? Hz HF']; subst. inversion HS as [|? ? HS1 HS2]; subst. cbn [ad_sum].
    apply (is_RInt_Chasles (V := R_NormedModule) (fun z0 => ad_integrand (steps 0 (z :: Z) F z0) z0) 0 z ad_end).
    + apply (is_RInt_ext (ad_integrand 0)); [|apply ad_first; lra]. intros x Hx. rewrite Rmin_left, Rmax_right in Hx by lra. rewrite steps_before; [reflexivity|].
      constructor; [lra|]. eapply Forall_impl; [|exact HS2]. intros y Hy. simpl in Hy. lra.
    + apply (is_RInt_ext (fun z0 => ad_integrand (steps (hd 0 F) Z (tl F) z0) z0)).
      * intros x Hx. rewrite Rmin_left, Rmax_right in Hx by lra. rewrite steps_after; [reflexivity|lra].
      * apply ad_integral; [lra|lra|exact HS|]. eapply Forall_impl; [|exact HF']. simpl. intros; lra.
Qed.
Lemma filter_perm {A} (f : A -> bool) l l' : Permutation l l' -> Permutation (filter f l) (filter f l').
Proof.
  induction 1; simpl.
  - constructor.
  - destruct (f x); [now constructor|assumption].
  - destruct (f x), (f y); try apply Permutation_refl; apply perm_swap.
  - eapply Permutation_trans; eassumption.
Qed.
Lemma ad_eq zs ps : length zs = length ps -> Forall (fun z => 0 < z < 1) zs ->
  anderson_darling zs ps = Ok (Some (INR (length zs) * ad_sum 0 0 0 (isort Rleb zs) (isort Rleb ps))).
Proof.
  intros HL HF. unfold anderson_darling. rewrite HL, Nat.eqb_refl. cbn [negb].
  replace (existsb _ zs) with false.
  2:{ symmetry. induction HF as [|z zs' Hz HF IH]; [reflexivity|]. simpl. rewrite (proj2 (Rltb'_true 0 z)), (proj2 (Rltb'_true z 1)) by lra. simpl.
      clear HL. clear IH. induction HF as [|z' zs' Hz' HF IH]; [reflexivity|]. simpl. rewrite (proj2 (Rltb'_true 0 z')), (proj2 (Rltb'_true z' 1)) by lra. exact IH. }
  rewrite map_app, app_length. cbn [map]. rewrite !removelast_snoc. cbn [length]. rewrite Nat.add_1_r, ad_sum_eq. reflexivity.
Qed.
Lemma isort_sorted_perm l l' : Permutation l l' -> StronglySorted Rle l' -> isort Rleb l = l'.
Proof.
  intros HP HS. rewrite (isort_perm_eq Rleb (to_total _ Rleb_order) (to_trans _ Rleb_order) (to_antisym _ Rleb_order) _ _ HP). apply isort_id; try apply Rleb_order. unfold sorted. clear HP.
  induction HS as [|x r Hr IH Hx]; constructor; auto. eapply Forall_impl; [|exact Hx]. intros y Hy. now apply Rleb_true.
Qed.

(** ** xy_downsample *)
Lemma take_at_ok l : forall idx r, take_at l idx = Ok r -> r = map (fun i => nth i l 0) idx /\ Forall (fun i => (i < length l)%nat) idx.
Proof.
  induction idx as [|i idx IH]; intros r H; simpl in H; [injection H as <-; auto|]. destruct (nth_error l i) as [v|] eqn:E; [|discriminate].
  apply bind_ok in H. destruct H as (t & Ht & H). injection H as <-. apply IH in Ht. destruct Ht as [-> HF]. cbn [map]. split.
  - f_equal. symmetry. now apply nth_error_nth.
  - constructor; [|exact HF]. apply nth_error_Some. congruence.
Qed.
Lemma take_at_all l idx : Forall (fun i => (i < length l)%nat) idx -> take_at l idx = Ok (map (fun i => nth i l 0) idx).
Proof.
  induction 1 as [|i idx Hi H IH]; [reflexivity|]. cbn [take_at map]. rewrite (nth_error_nth' l 0 Hi), IH. reflexivity.
Qed.
(** The indices used: increasing, from 0 to n - 1. *)
Definition good_indices (n k : nat) (ix : list nat) : Prop :=
  Forall (fun i => (i < n)%nat) ix /\ In 0%nat ix /\ In (n - 1)%nat ix /\ StronglySorted lt ix /\ length ix = ((n + k - 1) / k)%nat /\
  (forall j, (S j < length ix)%nat -> nth j ix 0%nat = (j * k)%nat).
Definition final_indices (n k : nat) : list nat :=
  if existsb (Nat.eqb (n - 1)) (arange n k) then arange n k else set_last (n - 1) (arange n k).
Lemma sorted_lt_nth (l : list nat) : (forall i j, (i < j < length l)%nat -> (nth i l 0 < nth j l 0)%nat) -> StronglySorted lt l.
Proof.
  induction l as [|x l IH]; intros H; constructor.
  - apply IH. intros i j Hij. apply (H (S i) (S j)). simpl. lia.
  - apply Forall_forall. intros y Hy. apply (In_nth _ _ 0%nat) in Hy. destruct Hy as (j & Hj & <-). apply (H 0%nat (S j)). simpl. lia.
Qed.
Lemma removelast_length {A} (l : list A) : length (removelast l) = (length l - 1)%nat.
Proof. induction l as [|x [|y l] IH]; [reflexivity|reflexivity|]. change (removelast (x :: y :: l)) with (x :: removelast (y :: l)). cbn [length] in *. rewrite IH. lia. Qed.
Lemma removelast_nth {A} (l : list A) i d : (S i < length l)%nat -> nth i (removelast l) d = nth i l d.
Proof.
  revert i. induction l as [|x [|y l] IH]; intros i H; simpl in H; [lia|lia|]. change (removelast (x :: y :: l)) with (x :: removelast (y :: l)).
  destruct i as [|i]; [reflexivity|]. cbn [nth]. apply IH. simpl. lia.
Qed.
Lemma indices_good n k : (0 < k)%nat -> (2 * k <= n)%nat -> good_indices n k (final_indices n k).
Proof.
  intros Hk Hn. set (c := ((n + k - 1) / k)%nat).
  assert (c * k <= n + k - 1 /\ n + k - 1 < S c * k)%nat as [C1 C2].
  { pose proof (Nat.div_mod (n + k - 1) k ltac:(lia)) as E. pose proof (Nat.mod_upper_bound (n + k - 1) k ltac:(lia)). fold c in E. nia. }
  assert (2 <= c)%nat as C3 by nia.
  assert (length (arange n k) = c) as L by (unfold arange; now rewrite map_length, seq_length).
  assert (forall j, (j < c)%nat -> nth j (arange n k) 0%nat = (j * k)%nat) as HN.
  { intros j Hj. unfold arange. fold c. rewrite (nth_indep _ 0%nat (0 * k)%nat) by (rewrite map_length, seq_length; exact Hj). rewrite (map_nth (fun i => (i * k)%nat)). now rewrite seq_nth. }
  unfold final_indices. destruct (existsb _ _) eqn:E.
  - apply existsb_exists in E. destruct E as (x & Hx & E). apply Nat.eqb_eq in E. subst x.
    split; [|split; [|split; [exact Hx|split; [|split; [exact L|intros j Hj; rewrite L in Hj; apply HN; lia]]]]].
    + apply Forall_forall. intros i Hi. apply (In_nth _ _ 0%nat) in Hi. destruct Hi as (j & Hj & <-). rewrite L in Hj. rewrite HN by exact Hj. nia.
    + assert (nth 0 (arange n k) 0%nat = 0%nat) as Z0 by (rewrite HN by lia; reflexivity). rewrite <- Z0 at 1. apply nth_In. lia.
    + apply sorted_lt_nth. intros i j Hij. rewrite L in Hij. rewrite !HN by lia. nia.
  - assert (length (set_last (n - 1) (arange n k)) = c) as L2 by (unfold set_last; rewrite app_length, removelast_length, L; simpl; lia).
    assert (forall j, (S j < c)%nat -> nth j (set_last (n - 1) (arange n k)) 0%nat = (j * k)%nat) as HN2.
    { intros j Hj. unfold set_last. rewrite app_nth1 by (rewrite removelast_length, L; lia). rewrite removelast_nth by lia. apply HN. lia. }
    assert (nth (c - 1) (set_last (n - 1) (arange n k)) 0%nat = (n - 1)%nat) as HL.
    { unfold set_last. rewrite app_nth2 by (rewrite removelast_length, L; lia). rewrite removelast_length, L. now rewrite Nat.sub_diag. }
    split; [|split; [|split; [|split; [|split; [exact L2|intros j Hj; rewrite L2 in Hj; now apply HN2]]]]].
    + apply Forall_forall. intros i Hi. apply (In_nth _ _ 0%nat) in Hi. destruct Hi as (j & Hj & <-). rewrite L2 in Hj.
      destruct (Nat.eq_dec j (c - 1)) as [-> |]; [lia|]. rewrite HN2 by lia. nia.
    + assert (nth 0 (set_last (n - 1) (arange n k)) 0%nat = 0%nat) as Z0 by (rewrite HN2 by lia; reflexivity). rewrite <- Z0 at 1. apply nth_In. lia.
    + rewrite <- HL at 1. apply nth_In. lia.
    + apply sorted_lt_nth. intros i j Hij. rewrite L2 in Hij. destruct (Nat.eq_dec j (c - 1)) as [-> |]; [rewrite HL, HN2 by lia; nia|]. rewrite !HN2 by lia. nia.
Qed.
(** A sorted list at the indices 0 and n - 1. *)
Lemma sorted_nth_le l : StronglySorted Rle l -> forall i j, (i <= j < length l)%nat -> nth i l 0 <= nth j l 0.
Proof.
  induction 1 as [|x l H IH Hx]; intros i j Hij; simpl in Hij; [lia|]. destruct i as [|i], j as [|j]; simpl; try lia; try lra.
  - rewrite Forall_forall in Hx. apply Hx, nth_In. lia.
  - apply IH. lia.
Qed.
Lemma extremes_at l ix : l <> [] -> In 0%nat ix -> In (length l - 1)%nat ix -> keeps_extremes l (map (fun i => nth i (isort Rleb l) 0) ix).
Proof.
  intros Hne H0 H1. pose proof (isort_R_sorted l) as HS. pose proof (isort_perm Rleb l) as HP. pose proof (isort_length Rleb l) as HL.
  assert (0 < length l)%nat by (destruct l; simpl; [congruence|lia]).
  assert (forall i, (i < length l)%nat -> In (nth i (isort Rleb l) 0) l) as HI. { intros i Hi. eapply Permutation_in; [apply Permutation_sym; exact HP|]. apply nth_In. lia. }
  assert (forall u, In u l -> exists i, (i < length l)%nat /\ nth i (isort Rleb l) 0 = u) as HJ.
  { intros u Hu. apply (Permutation_in _ HP) in Hu. apply (In_nth _ _ 0) in Hu. destruct Hu as (i & Hi & E). exists i. split; [lia|exact E]. }
  split.
  - exists (nth 0 (isort Rleb l) 0). split; [apply HI; lia|]. split; [now apply (in_map (fun i => nth i (isort Rleb l) 0))|]. intros u Hu. destruct (HJ u Hu) as (i & Hi & <-). apply sorted_nth_le; [exact HS|lia].
  - exists (nth (length l - 1) (isort Rleb l) 0). split; [apply HI; lia|]. split; [now apply (in_map (fun i => nth i (isort Rleb l) 0))|]. intros u Hu. destruct (HJ u Hu) as (i & Hi & <-). apply sorted_nth_le; [exact HS|lia].
Qed.
(** The factor in use. *)
Definition factor_of (d : dfactor) (n m : nat) : R :=
  if is_default d then IZR (rfloor (INR n / (1 / 2 * INR m))) else match d with DF_num f => f | _ => 0 end.
Lemma downsample_cases x y d m x' y' : xy_downsample x y d m = Ok (x', y') ->
  (x' = x /\ y' = y) \/
  (exists k, k = Z.to_nat (rfloor (factor_of d (length x) m)) /\ (0 < k)%nat /\ (2 * k <= length x)%nat /\ (is_default d = true -> (m <= length x)%nat) /\ d <> DF_False /\
     x' = map (fun i => nth i (isort Rleb x) 0) (final_indices (length x) k) /\
     y' = map (fun i => nth i (isort Rleb y) 0) (final_indices (length x) k) /\ Forall (fun i => (i < length y)%nat) (final_indices (length x) k)).
Proof.
  intros H. unfold xy_downsample in H. cbv zeta in H. set (n := length x) in *.
  assert (d <> DF_False -> is_default d && (n <? m)%nat = false -> forall f, f = factor_of d n m ->
    (if Req_EM_T f 0 then Err ZeroDivisionError else if Rltb' (INR n / f) 2 then Ok (x, y) else
      if (Z.to_nat (rfloor f) =? 0)%nat then Err ZeroDivisionError else
      let! xd := take_at (isort Rleb x) (final_indices n (Z.to_nat (rfloor f))) in let! yd := take_at (isort Rleb y) (final_indices n (Z.to_nat (rfloor f))) in Ok (xd, yd)) = Ok (x', y') ->
    (x' = x /\ y' = y) \/
    (exists k, k = Z.to_nat (rfloor (factor_of d n m)) /\ (0 < k)%nat /\ (2 * k <= n)%nat /\ (is_default d = true -> (m <= n)%nat) /\ d <> DF_False /\
     x' = map (fun i => nth i (isort Rleb x) 0) (final_indices n k) /\
     y' = map (fun i => nth i (isort Rleb y) 0) (final_indices n k) /\ Forall (fun i => (i < length y)%nat) (final_indices n k))) as K.
  { intros Hd Hm f -> HH. destruct (Req_EM_T (factor_of d n m) 0); [discriminate|]. destruct (Rltb' (INR n / factor_of d n m) 2) eqn:E1; [injection HH as <- <-; now left|].
    destruct (Nat.eqb_spec (Z.to_nat (rfloor (factor_of d n m))) 0) as [|Ek]; [discriminate|]. right. set (k := Z.to_nat (rfloor (factor_of d n m))) in *. exists k.
    split; [reflexivity|]. split; [lia|]. apply bind_ok in HH. destruct HH as (xd & Hx & HH). apply bind_ok in HH. destruct HH as (yd & Hy & HH). injection HH as <- <-.
    apply take_at_ok in Hx. apply take_at_ok in Hy. destruct Hx as [-> _]. destruct Hy as [-> Hy]. rewrite isort_length in Hy.
    split; [|split; [intros Hdef; rewrite Hdef in Hm; destruct (Nat.ltb_spec n m); [discriminate|lia]|split; [exact Hd|auto]]].
    apply Rltb'_false in E1. assert (IZR (Z.of_nat k) <= factor_of d n m) as Hkf.
    { apply rfloor_spec. unfold k. rewrite Z2Nat.id; [lia|]. unfold k in Ek. lia. }
    rewrite <- INR_IZR_INZ in Hkf. assert (1 <= INR k) as H1k by (apply (le_INR 1); lia).
    apply (INR_le (2 * k) n). rewrite mult_INR. simpl (INR 2). assert (2 * factor_of d n m <= INR n); [|lra].
    apply Rle_div_r in E1; [lra|lra]. }
  unfold final_indices in K at 1 2. destruct d as [| | |f0].
  - destruct (_ && (n <? m)%nat) eqn:E0; [injection H as <- <-; now left|]. destruct (m =? 0)%nat; [discriminate|]. cbn [bind] in H. exact (K ltac:(discriminate) eq_refl _ eq_refl H).
  - destruct (_ && (n <? m)%nat) eqn:E0; [injection H as <- <-; now left|]. destruct (m =? 0)%nat; [discriminate|]. cbn [bind] in H. exact (K ltac:(discriminate) eq_refl _ eq_refl H).
  - injection H as <- <-. now left.
  - destruct (_ && (n <? m)%nat) eqn:E0; [injection H as <- <-; now left|]. unfold factor_of in K |- *. destruct (is_default (DF_num f0)) eqn:E2.
    + destruct (m =? 0)%nat; [discriminate|]. cbn [bind] in H. exact (K ltac:(discriminate) eq_refl _ eq_refl H).
    + cbn [bind] in H. exact (K ltac:(discriminate) eq_refl _ eq_refl H).
Qed.

(** ** Transforms *)
Lemma valid_exponential_1 : valid (Exponential 1 0). Proof. simpl. lra. Qed.
Lemma valid_normal_1 : valid (Normal 0 1). Proof. simpl. lra. Qed.
Lemma valid_gumbel_1 : valid (Gumbel 0 1). Proof. simpl. lra. Qed.
Lemma valid_gamma_1 b : 0 < b -> valid (Gamma 1 b 0). Proof. simpl. lra. Qed.
Lemma valid_beta_1 a b : 0 < a -> 0 < b -> valid (DistModel.Beta a b). Proof. simpl. lra. Qed.
Definition paper_dist (p : paper) : option dist :=
  match p with
  | P_Weibull | P_Loglogistic => None | P_Exponential => Some (Exponential 1 0) | P_Normal => Some (Normal 0 1) | P_Gumbel => Some (Gumbel 0 1)
  | P_Gamma b => Some (Gamma 1 b 0) | P_Beta a b => Some (DistModel.Beta a b)
  end.
Lemma paper_dist_spec p d : valid_paper p -> paper_dist p = Some d -> valid d /\ (forall F, forward p F = ppf d F) /\ (forall r, inverse p r = cdf d r) /\ (forall r, on_paper p r <-> inside d r).
Proof.
  intros Hv E. destruct p; simpl in E; try discriminate; injection E as <-; simpl in Hv; (split; [simpl; lra|]); (split; [reflexivity|]); (split; [reflexivity|]);
    intros r; unfold inside, on_paper; simpl; split; try tauto; lra.
Qed.
Lemma inverse_forward p F : valid_paper p -> 0 < F < 1 -> on_paper p (forward p F) /\ inverse p (forward p F) = F.
Proof.
  intros Hv HF. destruct (paper_dist p) as [d|] eqn:E.
  - destruct (paper_dist_spec p d Hv E) as (Vd & E1 & E2 & E3). rewrite E2, E1, E3. exact (F_ppf d (all_facts d Vd) F HF).
  - destruct p; try discriminate; cbn [on_paper forward inverse]; (split; [exact I|]).
    + pose proof (neg_ln_pos (1 - F) ltac:(lra)). rewrite exp_ln by lra. rewrite Ropp_involutive, exp_ln by lra. ring.
    + assert (0 < 1 / (1 - F) - 1). { replace (1 / (1 - F) - 1) with (F / (1 - F)) by (field; lra). apply Rdiv_lt_0_compat; lra. } rewrite exp_ln by lra. field. lra.
Qed.
Lemma forward_inverse p r : valid_paper p -> on_paper p r -> 0 < inverse p r < 1 /\ forward p (inverse p r) = r.
Proof.
  intros Hv Hr. destruct (paper_dist p) as [d|] eqn:E.
  - destruct (paper_dist_spec p d Hv E) as (Vd & E1 & E2 & E3). rewrite E2, E1. apply E3 in Hr. split; [now apply (F_in d (all_facts d Vd))|now apply ppf_cdf].
  - destruct p; try discriminate; cbn [forward inverse].
    + pose proof (exp_neg_range (exp r) (exp_pos r)). split; [lra|]. replace (1 - (1 - exp (- exp r))) with (exp (- exp r)) by ring. now rewrite ln_exp, Ropp_involutive, ln_exp.
    + pose proof (exp_pos r). assert (0 < 1 / (exp r + 1) < 1).
      { split; [apply Rdiv_lt_0_compat; lra|]. apply Rlt_div_l; lra. }
      split; [lra|]. replace (1 / (1 - (1 - 1 / (exp r + 1))) - 1) with (exp r) by (field; lra). apply ln_exp.
Qed.
Lemma inverse_incr p r s : valid_paper p -> r <= s -> inverse p r <= inverse p s.
Proof.
  intros Hv Hrs. destruct (paper_dist p) as [d|] eqn:E.
  - destruct (paper_dist_spec p d Hv E) as (Vd & _ & E2 & _). rewrite !E2. now apply cdf_incr.
  - destruct p; try discriminate; cbn [inverse].
    + pose proof (ll_mono r s Hrs). lra.
    + pose proof (logistic_mono r s Hrs). lra.
Qed.
Lemma forward_strict p F G : valid_paper p -> 0 < F -> F < G -> G < 1 -> forward p F < forward p G.
Proof.
  intros Hv H1 H2 H3. destruct (Rlt_le_dec (forward p F) (forward p G)) as [|C]; [assumption|exfalso].
  apply (inverse_incr p _ _ Hv) in C. rewrite !(fun F H => proj2 (inverse_forward p F Hv H)) in C by lra. lra.
Qed.
Lemma inverse_strict p r s : valid_paper p -> on_paper p r -> on_paper p s -> r < s -> inverse p r < inverse p s.
Proof.
  intros Hv Hr Hs H. pose proof (inverse_incr p r s Hv ltac:(lra)) as [L|L]; [exact L|exfalso].
  apply (f_equal (forward p)) in L. rewrite !(fun r H => proj2 (forward_inverse p r Hv H)) in L by assumption. lra.
Qed.
Lemma on_paper_between p r s t : on_paper p r -> on_paper p s -> r <= t <= s -> on_paper p t.
Proof. destruct p; simpl; lra. Qed.
Lemma inverse_range p r : valid_paper p -> 0 <= inverse p r <= 1.
Proof.
  intros Hv. destruct (paper_dist p) as [d|] eqn:E.
  - destruct (paper_dist_spec p d Hv E) as (Vd & _ & E2 & _). rewrite E2. now apply cdf_range.
  - destruct p; try discriminate; pose proof (forward_inverse _ r Hv I); lra.
Qed.

(** ** transform_spaced *)
Lemma linspace_nth a b n i : (i < n)%nat -> nth i (linspace a b n) 0 = a + INR i * ((b - a) / INR (n - 1)).
Proof.
  intros Hi. unfold linspace. rewrite (nth_map_lt _ _ _ 0%nat) by (now rewrite seq_length). now rewrite seq_nth.
Qed.
Lemma linspace_length a b n : length (linspace a b n) = n.
Proof. unfold linspace. now rewrite map_length, seq_length. Qed.
Lemma loglogistic_flip F : 0 < F < 1 -> ln (1 / F - 1) = - forward P_Loglogistic F.
Proof.
  intros HF. simpl. assert (0 < 1 / (1 - F) - 1). { replace (1 / (1 - F) - 1) with (F / (1 - F)) by (field; lra). apply Rdiv_lt_0_compat; lra. }
  rewrite <- ln_Rinv by assumption. f_equal. field. lra.
Qed.
