From Coquelicot Require Import Coquelicot.
From Coq Require Import List Arith Reals Lra Lia Bool.
From Verif Require Import Base RealFacts Gauss Ext RList Linear DistModel DistSpec DistProofs CombModel RegModel RegSpec PoFProofs PoFProofs2 FitProofs.
Import ListNotations.
Open Scope R_scope.

Lemma dotp_pts : forall u v, length u = length v -> dotp u v = rsum (map (fun p => fst p * snd p) (combine u v)).
Proof.
  induction u as [|a u IH]; intros [|b v] H; try discriminate; [reflexivity|]. unfold dotp in *. cbn [zip combine map fst snd].
  rewrite !rsum_cons, IH by (simpl in H; lia). reflexivity.
Qed.
Lemma dotp_self : forall u, dotp u u = rsum (map (fun a => a ^ 2) u).
Proof. induction u as [|a u IH]; [reflexivity|]. unfold dotp in *. cbn [zip map]. rewrite !rsum_cons, IH. ring. Qed.
Lemma map_fst_combine {A B} : forall (u : list A) (v : list B), length u = length v -> map fst (combine u v) = u.
Proof. induction u as [|a u IH]; intros [|b v] H; try discriminate; [reflexivity|]. simpl. rewrite IH by (simpl in H; lia). reflexivity. Qed.
Lemma map_snd_combine {A B} : forall (u : list A) (v : list B), length u = length v -> map snd (combine u v) = v.
Proof. induction u as [|a u IH]; intros [|b v] H; try discriminate; [reflexivity|]. simpl. rewrite IH by (simpl in H; lia). reflexivity. Qed.
Lemma vertical_sse pts m c : vertical pts m c = sse pts m c. Proof. reflexivity. Qed.

Lemma solve2_lsq u v : u <> [] -> length u = length v ->
  (Sxx (combine u v) = 0 -> solve2 u v = None) /\
  (Sxx (combine u v) <> 0 -> solve2 u v = Some (lsq_slope (combine u v), lsq_intercept (combine u v))).
Proof.
  intros Hne Hl. set (pts := combine u v). assert (length pts = length u) as Hlen by (unfold pts; rewrite combine_length; lia).
  assert (pts <> []) as Hp by (intros E; apply Hne; destruct u; [reflexivity|]; rewrite E in Hlen; discriminate).
  assert (0 < INR (length u)) as Hn by (apply lt_0_INR; destruct u; [congruence|simpl; lia]).
  pose proof (Sxx_eq pts Hp) as EX. pose proof (Sxy_eq pts Hp) as EY.
  assert (dotp u u = rsum (map (fun p => fst p ^ 2) pts)) as E1.
  { rewrite dotp_self. unfold pts. rewrite <- (map_fst_combine u v Hl) at 1. now rewrite map_map. }
  assert (map fst pts = u) as E2 by now apply map_fst_combine. assert (map snd pts = v) as E3 by now apply map_snd_combine.
  assert (dotp u v = rsum (map (fun p => fst p * snd p) pts)) as E4 by now apply dotp_pts.
  rewrite <- E1, E2, Hlen in EX. rewrite <- E4, E2, E3, Hlen in EY.
  unfold solve2, lsq_intercept, lsq_slope, mean. rewrite E2, E3, <- Hl. set (n := INR (length u)) in *.
  assert (dotp u u * n - rsum u * rsum u = n * Sxx pts) as ED by (rewrite EX; field; lra). rewrite ED. split.
  - intros H0. destruct (Req_EM_T (n * Sxx pts) 0) as [_|N]; [reflexivity|]. exfalso. apply N. rewrite H0. ring.
  - intros H0. destruct (Req_EM_T (n * Sxx pts) 0) as [N|_].
    { apply Rmult_integral in N. destruct N; [lra|contradiction]. }
    assert (dotp u u = Sxx pts + rsum u ^ 2 / n) as -> by lra. assert (dotp u v = Sxy pts + rsum u * rsum v / n) as -> by lra.
    f_equal. f_equal; field; lra.
Qed.

Lemma solve1_spec u v : length u = length v ->
  (dotp u u = 0 -> solve1 u v = None) /\
  (dotp u u <> 0 -> exists m, solve1 u v = Some m /\ m * dotp u u = dotp u v).
Proof.
  intros Hl. unfold solve1. split; intros H; destruct (Req_EM_T (dotp u u) 0); try contradiction; [reflexivity|].
  eexists. split; [reflexivity|]. field. exact H.
Qed.
Lemma solve1_some u v m : solve1 u v = Some m -> dotp u u <> 0 /\ m * dotp u u = dotp u v.
Proof. unfold solve1. destruct (Req_EM_T (dotp u u) 0) as [|N]; [discriminate|]. intros [= <-]. split; [exact N|]. field. exact N. Qed.
Lemma dotp_nonneg u : 0 <= dotp u u.
Proof. rewrite dotp_self. apply rsum_nonneg, Forall_forall. intros x Hx. apply in_map_iff in Hx. destruct Hx as (q & <- & _). apply pow2_ge_0. Qed.
Lemma dotp_zero u : dotp u u = 0 <-> (forall a, In a u -> a = 0).
Proof.
  rewrite dotp_self. split.
  - intros H a Ha. apply rsum_zero_nonneg in H.
    + rewrite Forall_forall in H. specialize (H (a ^ 2) (in_map (fun a => a ^ 2) _ _ Ha)). simpl in H. nra.
    + apply Forall_forall. intros x Hx. apply in_map_iff in Hx. destruct Hx as (q & <- & _). apply pow2_ge_0.
  - intros H. rewrite (rsum_ext _ (fun _ => 0)); [rewrite rsum_const; ring|]. intros a Ha. rewrite (H a Ha). ring.
Qed.

(** Minimum of the one parameter sums of squares. *)
Lemma one_param u v m m' : length u = length v -> m * dotp u u = dotp u v ->
  rsum (map (fun p => (snd p - m * fst p) ^ 2) (combine u v)) <= rsum (map (fun p => (snd p - m' * fst p) ^ 2) (combine u v)).
Proof.
  intros Hl Hm. rewrite dotp_pts in Hm by reflexivity. rewrite (dotp_pts u v Hl) in Hm.
  assert (forall k, rsum (map (fun p => (snd p - k * fst p) ^ 2) (combine u v)) =
     rsum (map (fun p => snd p ^ 2) (combine u v)) - 2 * k * rsum (map (fun p => fst p * snd p) (combine u v)) + k ^ 2 * rsum (map (fun p => fst p * snd p) (combine u u))) as E.
  { intros k. clear Hm. revert v Hl. induction u as [|a u IH]; intros [|b v] Hl; try discriminate; [cbn; ring|].
    cbn [combine map fst snd]. rewrite !rsum_cons, IH by (simpl in Hl; lia). ring. }
  rewrite !E. rewrite <- Hm. pose proof (dotp_nonneg u) as P. rewrite dotp_pts in P by reflexivity. set (D := rsum (map (fun p => fst p * snd p) (combine u u))) in *.
  assert (0 <= (m' - m) ^ 2 * D) by (apply Rmult_le_pos; [apply pow2_ge_0|exact P]). nra.
Qed.

Lemma combine_r (f : R -> R) : forall u v : list R, combine u (map f v) = map (fun p => (fst p, f (snd p))) (combine u v).
Proof. induction u as [|a u IH]; intros [|b v]; try reflexivity. cbn [map combine fst snd]. now rewrite IH. Qed.
Lemma combine_swap_r (f : R -> R) : forall u v : list R, combine v (map f u) = map (fun p => (snd p, f (fst p))) (combine u v).
Proof. induction u as [|a u IH]; intros [|b v]; try reflexivity. cbn [map combine fst snd]. now rewrite IH. Qed.
Lemma combine_ones_yx (f : R -> R -> R) : forall u v : list R, length u = length v -> combine (map (fun _ => 1) u) (zip f v u) = map (fun p => (1, f (snd p) (fst p))) (combine u v).
Proof. induction u as [|a u IH]; intros [|b v] H; try discriminate; [reflexivity|]. cbn [map combine zip fst snd]. now rewrite IH by (simpl in H; lia). Qed.
Lemma combine_ones_xy (f : R -> R -> R) : forall u v : list R, length u = length v -> combine (map (fun _ => 1) v) (zip f u v) = map (fun p => (1, f (fst p) (snd p))) (combine u v).
Proof. induction u as [|a u IH]; intros [|b v] H; try discriminate; [reflexivity|]. cbn [map combine zip fst snd]. now rewrite IH by (simpl in H; lia). Qed.
Lemma zip_length {A B C} (f : A -> B -> C) : forall u v, length u = length v -> length (zip f u v) = length u.
Proof. induction u as [|a u IH]; intros [|b v] H; try discriminate; [reflexivity|]. cbn [zip length]. now rewrite IH by (simpl in H; lia). Qed.
Lemma combine_swap : forall u v : list R, combine v u = map (fun p => (snd p, fst p)) (combine u v).
Proof. induction u as [|a u IH]; intros [|b v]; try reflexivity. cbn [map combine fst snd]. now rewrite IH. Qed.

Lemma le_ext (f f' g g' : R * R -> R) l : rsum (map f' l) <= rsum (map g' l) -> (forall p, f p = f' p) -> (forall p, g p = g' p) -> rsum (map f l) <= rsum (map g l).
Proof. intros H Hf Hg. rewrite (rsum_ext f f'), (rsum_ext g g') by auto. exact H. Qed.
Lemma horizontal_vertical pts m c : m <> 0 -> horizontal pts m c = vertical (map (fun p => (snd p, fst p)) pts) (1 / m) (- c / m).
Proof. intros Hm. unfold horizontal, vertical. rewrite map_map. apply rsum_ext. intros p _. cbn [fst snd]. f_equal. field. exact Hm. Qed.

Ltac lens Hl := rewrite ?map_length, ?zip_length; rewrite ?map_length, ?zip_length; try (rewrite Hl; reflexivity); try congruence.

Lemma solved_ok {A} (o : option A) v : solved o = Ok v -> o = Some v.
Proof. destruct o; simpl; congruence. Qed.
Lemma bind_ok {A B} (r : result A) (k : A -> result B) v : bind r k = Ok v -> exists a, r = Ok a /\ k a = Ok v.
Proof. destruct r; simpl; [eauto|discriminate]. Qed.

Theorem rry_optimal x y slope xi yi m c : linear_regression x y slope xi yi (Some RRY) = Ok (Some (m, c)) ->
  length x = length y /\ xi = None /\ honours slope m /\ honours yi c /\
  forall m' c', honours slope m' -> honours yi c' -> vertical (combine x y) m c <= vertical (combine x y) m' c'.
Proof.
  unfold linear_regression. destruct (Nat.eqb_spec (length x) (length y)) as [Hl|]; [|discriminate]. cbn [negb].
  destruct slope as [s|], xi as [x0|], yi as [y0|]; try discriminate.
  - destruct (length x <? 1)%nat; [discriminate|]. intros H. apply bind_ok in H. destruct H as (c0 & H1 & H2). injection H2 as -> ->.
    apply solved_ok, solve1_some in H1. destruct H1 as [_ H1]. split; [exact Hl|]. split; [reflexivity|]. split; [intros w [=]; congruence|]. split; [intros w [=]|].
    intros m' c' Hm _. rewrite (Hm m eq_refl) in *. clear Hm m'.
    pose proof (fun c' => one_param (map (fun _ => 1) x) (zip (fun yi xi => yi - m * xi) y x) c c') as O.
    specialize (O c'). assert (length (map (fun _ : R => 1) x) = length (zip (fun yi xi => yi - m * xi) y x)) as L by (rewrite map_length, zip_length; congruence).
    specialize (O L H1). rewrite combine_ones_yx, !map_map in O by exact Hl. cbn [fst snd] in O. unfold vertical.
    refine (le_ext _ _ _ _ _ O _ _); intros p; cbn beta; ring.
  - destruct (length x <? 1)%nat; [discriminate|]. intros H. apply bind_ok in H. destruct H as (m0 & H1 & H2). injection H2 as -> ->.
    apply solved_ok, solve1_some in H1. destruct H1 as [_ H1]. split; [exact Hl|]. split; [reflexivity|]. split; [intros w [=]|]. split; [intros w [=]; congruence|].
    intros m' c' _ Hc. rewrite (Hc c eq_refl) in *. clear Hc c'.
    pose proof (one_param x (map (fun v => v - c) y) m m') as O. rewrite map_length in O. specialize (O Hl H1). rewrite combine_r, !map_map in O. cbn [fst snd] in O. unfold vertical.
    refine (le_ext _ _ _ _ _ O _ _); intros p; cbn beta; ring.
  - destruct (Nat.ltb_spec (length x) 2); [discriminate|]. intros H1. apply bind_ok in H1. destruct H1 as ((m0, c0) & H1 & H2). injection H2 as -> ->.
    apply solved_ok in H1. destruct (solve2_lsq x y) as [N S]; [intros ->; simpl in *; lia|exact Hl|].
    destruct (Req_EM_T (Sxx (combine x y)) 0) as [E|E]; [rewrite N in H1 by exact E; discriminate|]. rewrite S in H1 by exact E. injection H1 as <- <-.
    split; [exact Hl|]. split; [reflexivity|]. split; [intros w [=]|]. split; [intros w [=]|]. intros m' c' _ _. rewrite !vertical_sse. now apply lsq_optimal.
Qed.

Theorem rrx_optimal x y slope xi yi m c : linear_regression x y slope xi yi (Some RRX) = Ok (Some (m, c)) ->
  length x = length y /\ yi = None /\ m <> 0 /\ honours slope (1 / m) /\ (forall x0, xi = Some x0 -> m * x0 + c = 0) /\
  forall m' c', m' <> 0 -> honours slope (1 / m') -> (forall x0, xi = Some x0 -> m' * x0 + c' = 0) ->
    horizontal (combine x y) m c <= horizontal (combine x y) m' c'.
Proof.
  unfold linear_regression. destruct (Nat.eqb_spec (length x) (length y)) as [Hl|]; [|discriminate]. cbn [negb].
  destruct slope as [s|], xi as [x0|], yi as [y0|]; try discriminate.
  - destruct (length x <? 1)%nat; [discriminate|]. intros H. apply bind_ok in H. destruct H as (c0 & H1 & H2).
    destruct (Req_EM_T s 0) as [|Hs]; [discriminate|]. injection H2 as <- <-.
    apply solved_ok, solve1_some in H1. destruct H1 as [_ H1]. split; [exact Hl|]. split; [reflexivity|].
    assert (1 / s <> 0) as Hm by (apply Rmult_integral_contrapositive; split; [lra|now apply Rinv_neq_0_compat]). split; [exact Hm|].
    split; [intros w [= <-]; field; exact Hs|]. split; [intros w [=]|].
    intros m' c' Hm' Hs' _. specialize (Hs' s eq_refl). rewrite !horizontal_vertical by assumption. unfold vertical. rewrite !map_map. cbn [fst snd].
    assert (length (map (fun _ : R => 1) y) = length (zip (fun xi yi => xi - s * yi) x y)) as L by (rewrite map_length, zip_length; congruence).
    pose proof (one_param _ _ c0 (- c' / m') L H1) as O. rewrite combine_ones_xy, !map_map in O by exact Hl. cbn [fst snd] in O.
    refine (le_ext _ _ _ _ _ O _ _); intros p; cbn beta.
    + field. exact Hs.
    + rewrite Hs'. ring.
  - destruct (length x <? 1)%nat; [discriminate|]. intros H. apply bind_ok in H. destruct H as (m0 & H1 & H2). unfold rearrange in H2.
    destruct (Req_EM_T m0 0) as [|Hs]; [discriminate|]. injection H2 as <- <-.
    apply solved_ok, solve1_some in H1. destruct H1 as [_ H1]. split; [exact Hl|]. split; [reflexivity|].
    assert (1 / m0 <> 0) as Hm by (apply Rmult_integral_contrapositive; split; [lra|now apply Rinv_neq_0_compat]). split; [exact Hm|].
    split; [intros w [=]|]. split; [intros w [= <-]; field; exact Hs|].
    intros m' c' Hm' _ Hc. specialize (Hc x0 eq_refl). assert (c' = - m' * x0) as -> by lra. clear Hc.
    rewrite !horizontal_vertical by assumption. unfold vertical. rewrite !map_map. cbn [fst snd].
    pose proof (one_param y (map (fun v => v - x0) x) m0 (1 / m')) as O. rewrite map_length in O. specialize (O (eq_sym Hl) H1). rewrite combine_swap_r, !map_map in O. cbn [fst snd] in O.
    refine (le_ext _ _ _ _ _ O _ _); intros p; cbn beta; field; assumption.
  - destruct (Nat.ltb_spec (length x) 2); [discriminate|]. intros H1. apply bind_ok in H1. destruct H1 as ((m0, c0) & H1 & H2). cbn [fst snd] in H2.
    unfold rearrange in H2. destruct (Req_EM_T m0 0) as [|Hs]; [discriminate|]. injection H2 as <- <-.
    apply solved_ok in H1. destruct (solve2_lsq y x) as [N S]; [intros ->; simpl in *; lia|congruence|].
    destruct (Req_EM_T (Sxx (combine y x)) 0) as [E|E]; [rewrite N in H1 by exact E; discriminate|]. rewrite S in H1 by exact E. injection H1 as <- <-.
    set (pts := combine y x) in *. assert (1 / lsq_slope pts <> 0) as Hm by (apply Rmult_integral_contrapositive; split; [lra|now apply Rinv_neq_0_compat]).
    split; [exact Hl|]. split; [reflexivity|]. split; [exact Hm|]. split; [intros w [=]|]. split; [intros w [=]|].
    intros m' c' Hm' _ _. rewrite !horizontal_vertical by assumption. rewrite <- combine_swap. fold pts. rewrite !vertical_sse.
    replace (1 / (1 / lsq_slope pts)) with (lsq_slope pts) by (field; exact Hs).
    replace (- (- lsq_intercept pts / lsq_slope pts) / (1 / lsq_slope pts)) with (lsq_intercept pts) by (field; exact Hs). now apply lsq_optimal.
Qed.

(** When a line is returned. *)
Lemma classic_two u : two_different u \/ (forall a b, In a u -> In b u -> a = b).
Proof.
  induction u as [|a u [(p & q & Hp & Hq & N)|IH]].
  - right. intros a b [].
  - left. exists p, q. split; [now right|]. split; [now right|exact N].
  - destruct u as [|b u].
    + right. intros p q [<-|[]] [<-|[]]. reflexivity.
    + destruct (Req_EM_T a b) as [->|N].
      * right. intros p q Hp Hq. apply IH; [destruct Hp as [<-|Hp]; [now left|exact Hp]|destruct Hq as [<-|Hq]; [now left|exact Hq]].
      * left. exists a, b. split; [now left|]. split; [right; now left|exact N].
Qed.
Lemma two_diff_Sxx u v : length u = length v -> (two_different u <-> Sxx (combine u v) <> 0).
Proof.
  intros Hl. split.
  - intros (a & b & Ha & Hb & Hab) E. apply Hab. rewrite Sxx_zero in E. rewrite <- (map_fst_combine u v Hl) in Ha, Hb.
    apply in_map_iff in Ha. apply in_map_iff in Hb. destruct Ha as (p & <- & Hp), Hb as (q & <- & Hq). now apply E.
  - intros H. destruct (classic_two u) as [T|T]; [exact T|]. exfalso. apply H, Sxx_zero. intros p q Hp Hq.
    apply T; rewrite <- (map_fst_combine u v Hl); apply in_map; assumption.
Qed.

Lemma len2 u : two_different u -> (2 <= length u)%nat.
Proof. intros (a & b & Ha & Hb & N). destruct u as [|p [|q u]]; simpl in *; [contradiction| |lia]. destruct Ha as [<-|[]], Hb as [<-|[]]. congruence. Qed.
Lemma rry_success x y : length x = length y -> two_different x -> exists m c, linear_regression x y None None None (Some RRY) = Ok (Some (m, c)).
Proof.
  intros Hl H. pose proof (len2 x H) as H2. unfold linear_regression. rewrite (proj2 (Nat.eqb_eq _ _) Hl). cbn [negb].
  destruct (Nat.ltb_spec (length x) 2); [lia|]. destruct (solve2_lsq x y) as [_ S]; [intros ->; simpl in H2; lia|exact Hl|].
  rewrite S by now apply two_diff_Sxx. cbn [solved bind]. eauto.
Qed.
Lemma rrx_success x y : length x = length y -> two_different y -> Sxy (combine y x) <> 0 -> exists m c, linear_regression x y None None None (Some RRX) = Ok (Some (m, c)).
Proof.
  intros Hl H Hc. pose proof (len2 y H) as H2. unfold linear_regression. rewrite (proj2 (Nat.eqb_eq _ _) Hl). cbn [negb].
  destruct (Nat.ltb_spec (length x) 2); [lia|]. destruct (solve2_lsq y x) as [_ S]; [intros ->; simpl in H2; lia|congruence|].
  rewrite S by (apply two_diff_Sxx; [congruence|exact H]). cbn [solved bind fst snd]. unfold rearrange.
  destruct (Req_EM_T (lsq_slope (combine y x)) 0) as [E|]; [|eauto]. exfalso. unfold lsq_slope in E. apply Rmult_integral in E. destruct E as [E|E]; [contradiction|].
  revert E. apply Rinv_neq_0_compat. apply two_diff_Sxx; [congruence|exact H].
Qed.
Lemma rry_same_x x y : length x = length y -> (2 <= length x)%nat -> ~ two_different x -> linear_regression x y None None None (Some RRY) = Err RuntimeError.
Proof.
  intros Hl H2 H. unfold linear_regression. rewrite (proj2 (Nat.eqb_eq _ _) Hl). cbn [negb].
  destruct (Nat.ltb_spec (length x) 2); [lia|]. destruct (solve2_lsq x y) as [N _]; [intros ->; simpl in H2; lia|exact Hl|].
  rewrite N; [reflexivity|]. destruct (Req_EM_T (Sxx (combine x y)) 0) as [E|E]; [exact E|]. exfalso. apply H. now apply (two_diff_Sxx x y).
Qed.

Lemma solve1_exact u v m : length u = length v -> (forall p, In p (combine u v) -> snd p = m * fst p) -> dotp u u <> 0 -> solve1 u v = Some m.
Proof.
  intros Hl H Hd. unfold solve1. destruct (Req_EM_T (dotp u u) 0); [contradiction|]. f_equal.
  assert (dotp u v = m * dotp u u) as ->; [|field; exact Hd].
  clear n Hd. revert v Hl H. induction u as [|a u IH]; intros [|b v] Hl H; try discriminate; [unfold dotp, rsum; simpl; ring|].
  unfold dotp in *. cbn [zip]. rewrite !rsum_cons, (IH v) by (try (simpl in Hl; lia); intros p Hp; apply H; now right).
  pose proof (H (a, b) (or_introl eq_refl)) as E. cbn [fst snd] in E. rewrite E. ring.
Qed.
Lemma dotp_ones {A} (u : list A) : u <> [] -> dotp (map (fun _ => 1) u) (map (fun _ => 1) u) <> 0.
Proof. intros Hu E. rewrite dotp_zero in E. destruct u as [|a u]; [congruence|]. specialize (E 1 (or_introl eq_refl)). lra. Qed.

Section Exact.
  Variables (x y : list R) (m c : R).
  Hypothesis Hl : length x = length y.
  Hypothesis Hm : m <> 0.
  Hypothesis Hline : forall p, In p (combine x y) -> snd p = m * fst p + c.

  Lemma line_exact me : two_different x -> linear_regression x y None None None (Some me) = Ok (Some (m, c)).
  Proof.
    intros H. pose proof (len2 x H) as H2. unfold linear_regression. rewrite (proj2 (Nat.eqb_eq _ _) Hl). cbn [negb].
    destruct (Nat.ltb_spec (length x) 2); [lia|]. destruct me.
    - destruct (solve2_lsq y x) as [_ S]; [intros ->; simpl in Hl; lia|congruence|].
      assert (Sxx (combine y x) <> 0) as HS.
      { apply two_diff_Sxx; [congruence|]. destruct H as (a & b & Ha & Hb & N). exists (m * a + c), (m * b + c).
        assert (forall a, In a x -> In (m * a + c) y) as HI.
        { intros a' Ha'. rewrite <- (map_fst_combine x y Hl) in Ha'. apply in_map_iff in Ha'. destruct Ha' as (p & <- & Hp). rewrite <- (Hline p Hp).
          rewrite <- (map_snd_combine x y Hl) at 1. now apply in_map. }
        split; [now apply HI|]. split; [now apply HI|]. intros E. apply N. apply Rmult_eq_reg_l with m; [lra|exact Hm]. }
      rewrite (S HS). destruct (lsq_exact (combine y x) (1 / m) (- c / m) HS) as [-> ->].
      { intros p Hp. rewrite (combine_swap x y) in Hp. apply in_map_iff in Hp. destruct Hp as (q & <- & Hq). cbn [fst snd]. rewrite (Hline q Hq). field. exact Hm. }
      cbn [solved bind fst snd]. unfold rearrange. assert (1 / m <> 0) as Hi by (apply Rmult_integral_contrapositive; split; [lra|now apply Rinv_neq_0_compat]).
      destruct (Req_EM_T (1 / m) 0); [contradiction|]. do 3 f_equal; field; exact Hm.
    - destruct (solve2_lsq x y) as [_ S]; [intros ->; simpl in H2; lia|exact Hl|]. rewrite S by now apply two_diff_Sxx.
      destruct (lsq_exact (combine x y) m c) as [-> ->]; [now apply two_diff_Sxx|exact Hline|]. reflexivity.
  Qed.

  Lemma slope_exact me : x <> [] -> linear_regression x y (Some (match me with RRX => 1 / m | RRY => m end)) None None (Some me) = Ok (Some (m, c)).
  Proof.
    intros Hx. unfold linear_regression. rewrite (proj2 (Nat.eqb_eq _ _) Hl). cbn [negb].
    destruct (Nat.ltb_spec (length x) 1); [destruct x; [congruence|simpl in *; lia]|].
    assert (y <> []) as Hy by (destruct x, y; try congruence; discriminate). destruct me.
    - rewrite (solve1_exact _ _ (- c / m)).
      + cbn [solved bind]. assert (1 / m <> 0) as Hi by (apply Rmult_integral_contrapositive; split; [lra|now apply Rinv_neq_0_compat]).
        destruct (Req_EM_T (1 / m) 0); [contradiction|]. do 3 f_equal; field; exact Hm.
      + rewrite map_length, zip_length; congruence.
      + intros p Hp. rewrite combine_ones_xy in Hp by exact Hl. apply in_map_iff in Hp. destruct Hp as (q & <- & Hq). cbn [fst snd]. rewrite (Hline q Hq). field. exact Hm.
      + now apply dotp_ones.
    - rewrite (solve1_exact _ _ c).
      + reflexivity.
      + rewrite map_length, zip_length; congruence.
      + intros p Hp. rewrite combine_ones_yx in Hp by exact Hl. apply in_map_iff in Hp. destruct Hp as (q & <- & Hq). cbn [fst snd]. rewrite (Hline q Hq). ring.
      + now apply dotp_ones.
  Qed.

  Lemma origin_exact me : c = 0 -> (exists a, In a x /\ a <> 0) ->
    linear_regression x y None (match me with RRX => Some 0 | RRY => None end) (match me with RRX => None | RRY => Some 0 end) (Some me) = Ok (Some (m, 0)).
  Proof.
    intros -> (a & Ha & Na). unfold linear_regression. rewrite (proj2 (Nat.eqb_eq _ _) Hl). cbn [negb].
    destruct (Nat.ltb_spec (length x) 1); [destruct x; [contradiction|simpl in *; lia]|]. destruct me.
    - rewrite (solve1_exact _ _ (1 / m)).
      + cbn [solved bind]. unfold rearrange. assert (1 / m <> 0) as Hi by (apply Rmult_integral_contrapositive; split; [lra|now apply Rinv_neq_0_compat]).
        destruct (Req_EM_T (1 / m) 0); [contradiction|]. do 3 f_equal; field; exact Hm.
      + rewrite map_length; congruence.
      + intros p Hp. rewrite combine_swap_r in Hp. apply in_map_iff in Hp. destruct Hp as (q & <- & Hq). cbn [fst snd]. rewrite (Hline q Hq). field. exact Hm.
      + intros E. rewrite dotp_zero in E. rewrite <- (map_fst_combine x y Hl) in Ha. apply in_map_iff in Ha. destruct Ha as (q & <- & Hq).
        assert (snd q = 0) as Z by (apply E; rewrite <- (map_snd_combine x y Hl); now apply in_map). rewrite (Hline q Hq) in Z. apply Na.
        apply Rmult_eq_reg_l with m; [lra|exact Hm].
    - rewrite (solve1_exact _ _ m).
      + reflexivity.
      + rewrite map_length; congruence.
      + intros p Hp. rewrite combine_r in Hp. apply in_map_iff in Hp. destruct Hp as (q & <- & Hq). cbn [fst snd]. rewrite (Hline q Hq). ring.
      + intros E. rewrite dotp_zero in E. apply Na. now apply E.
  Qed.
End Exact.

(** ** Linearised CDFs *)
(** The line on which the straightened CDF lies. *)
Definition true_line (d : ls_dist) (p : list R) : R * R :=
  match d, p with
  | LS_Weibull, [a; b] => (b, - b * ln a)
  | LS_Exponential, [l] => (l, 0)
  | LS_Normal, [m; s] | LS_Gumbel, [m; s] | LS_Lognormal, [m; s] => (1 / s, - m / s)
  | LS_Loglogistic, [a; b] => (- b, b * ln a)
  | _, _ => (0, 0)
  end.
Lemma ln_pow_quot t a b : 0 < t -> 0 < a -> ln (Rpower (t / a) b) = b * (ln t - ln a).
Proof. intros Ht Ha. unfold Rpower. rewrite ln_exp, ln_div by assumption. reflexivity. Qed.
Lemma straightened d p D t : fitted_dist d p = Some D -> valid D -> (signed_dist d = true \/ 0 < t) ->
  ylin d (cdf D t) = fst (true_line d p) * xlin d t + snd (true_line d p).
Proof.
  intros HD Hv Ht. destruct d; (destruct p as [|p1 [|p2 [|? ?]]]; try discriminate HD); cbn [fitted_dist] in HD; injection HD as <-; cbn [valid signed_dist] in *;
    cbn [ylin xlin cdf true_line fst snd]; try (destruct Ht as [Ht|Ht]; [discriminate|]).
  - rewrite on_pos_pos by (rewrite Rminus_0_r; apply Rdiv_lt_0_compat; lra). rewrite Rminus_0_r.
    replace (1 - (1 - exp (- Rpower (t / p1) p2))) with (exp (- Rpower (t / p1) p2)) by ring. rewrite ln_exp, Ropp_involutive, ln_pow_quot by lra. ring.
  - rewrite on_pos_pos by (rewrite Rminus_0_r; apply Rdiv_lt_0_compat; [lra|apply Rdiv_lt_0_compat; lra]). rewrite Rminus_0_r.
    replace (1 - (1 - exp (- (t / (1 / p1))))) with (exp (- (t / (1 / p1)))) by ring. rewrite ln_exp. field. lra.
  - rewrite norm_ppf_Phi. field. lra.
  - replace (1 - (1 - exp (- exp ((t - p1) / p2)))) with (exp (- exp ((t - p1) / p2))) by ring. rewrite ln_exp, Ropp_involutive, ln_exp. field. lra.
  - rewrite on_pos_pos by (rewrite Rminus_0_r; apply Rdiv_lt_0_compat; [lra|apply exp_pos]). rewrite Rminus_0_r, norm_ppf_Phi, ln_div, ln_exp by (try lra; apply exp_pos). field. lra.
  - rewrite on_pos_pos by (rewrite Rminus_0_r; apply Rdiv_lt_0_compat; lra). rewrite Rminus_0_r.
    pose proof (Rpower_gt_0 (t / p1) (- p2)) as HP. replace (1 / (1 / (1 + Rpower (t / p1) (- p2))) - 1) with (Rpower (t / p1) (- p2)) by (field; lra).
    rewrite ln_pow_quot by lra. ring.
Qed.
Lemma true_slope d p D : fitted_dist d p = Some D -> valid D -> fst (true_line d p) <> 0.
Proof.
  intros HD Hv. destruct d; (destruct p as [|p1 [|p2 [|? ?]]]; try discriminate HD); cbn [fitted_dist] in HD; injection HD as <-; cbn [valid] in *; cbn [true_line fst]; try lra;
    apply Rgt_not_eq, Rdiv_lt_0_compat; lra.
Qed.
Lemma true_params d p D : fitted_dist d p = Some D -> valid D -> line_params d (true_line d p) = Some p.
Proof.
  intros HD Hv. pose proof (true_slope d p D HD Hv) as HS.
  destruct d; (destruct p as [|p1 [|p2 [|? ?]]]; try discriminate HD); cbn [fitted_dist] in HD; injection HD as <-; cbn [valid] in *; cbn [true_line fst line_params] in *; try reflexivity;
    (destruct (Req_EM_T _ 0); [contradiction|]); f_equal.
  - f_equal. replace (- (- p2 * ln p1) / p2) with (ln p1) by (field; lra). apply exp_ln; lra.
  - f_equal; [field; lra|f_equal; field; lra].
  - f_equal; [field; lra|f_equal; field; lra].
  - f_equal; [field; lra|f_equal; field; lra].
  - f_equal; [|f_equal; ring]. replace (p2 * ln p1 / - - p2) with (ln p1) by (field; lra). apply exp_ln; lra.
Qed.

Lemma combine_map_map (f g : R -> R) : forall u v, combine (map f u) (map g v) = map (fun p => (f (fst p), g (snd p))) (combine u v).
Proof. induction u as [|a u IH]; intros [|b v]; try reflexivity. cbn [map combine fst snd]. now rewrite IH. Qed.
Lemma combine_self_map (g : R -> R) : forall u, combine u (map g u) = map (fun a => (a, g a)) u.
Proof. induction u as [|a u IH]; [reflexivity|]. cbn [map combine]. now rewrite IH. Qed.

Theorem least_squares_exact d p D failures x me force :
  fitted_dist d p = Some D -> valid D ->
  (signed_dist d = true \/ (Forall (Rlt 0) failures /\ Forall (Rlt 0) x)) ->
  (force = None \/ (shape_dist d = true /\ force = Some (shape_of d p))) ->
  x <> [] -> (two_different x \/ force <> None \/ d = LS_Exponential) ->
  least_squares d failures x (map (cdf D) x) (Some me) force = Ok (Some p).
Proof.
  intros HD Hv Hpos Hf Hx H2. unfold least_squares.
  assert (existsb (fun t => if Rle_dec t 0 then true else false) failures && negb (signed_dist d) = false) as ->.
  { destruct Hpos as [->|[Hp _]]; [apply andb_false_r|]. apply andb_false_iff. left. apply not_true_iff_false. intros E. apply existsb_exists in E. destruct E as (t & Ht & Hle).
    rewrite Forall_forall in Hp. specialize (Hp t Ht). destruct (Rle_dec t 0); [lra|discriminate]. }
  assert (match force with Some _ => if negb (shape_dist d) then Err ValueError else Ok tt | None => Ok tt end = Ok tt) as -> by (destruct Hf as [->|[-> ->]]; reflexivity).
  cbn [bind]. assert (forall t, In t x -> signed_dist d = true \/ 0 < t) as Hx0.
  { intros t Ht. destruct Hpos as [E|[_ HF]]; [now left|right]. rewrite Forall_forall in HF. now apply HF. }
  rewrite map_map. set (X := map (xlin d) x). set (Y := map (fun t => ylin d (cdf D t)) x).
  assert (length X = length Y) as HL by (unfold X, Y; now rewrite !map_length).
  assert (forall q, In q (combine X Y) -> snd q = fst (true_line d p) * fst q + snd (true_line d p)) as HLine.
  { intros q Hq. unfold X, Y in Hq. rewrite combine_map_map in Hq. apply in_map_iff in Hq. destruct Hq as ((a, b) & <- & Hin). cbn [fst snd].
    assert (a = b /\ In a x) as [-> Ha]. { clear -Hin. induction x as [|z x IH]; [contradiction|]. destruct Hin as [[= <- <-]|Hin]; [split; [reflexivity|now left]|]. destruct (IH Hin). split; [assumption|now right]. }
    apply (straightened d p D b HD Hv). now apply Hx0. }
  pose proof (true_slope d p D HD Hv) as HS. pose proof (true_params d p D HD Hv) as HP.
  assert (forall a b, In a x -> In b x -> xlin d a = xlin d b -> a = b) as Hinj.
  { intros a b Ha Hb E. pose proof (Hx0 a Ha). pose proof (Hx0 b Hb). destruct d; cbn [xlin signed_dist] in *; try exact E; apply ln_inv; try exact E; destruct H, H0; try discriminate; assumption. }
  assert (two_different x -> two_different X) as HX2.
  { intros (a & b & Ha & Hb & N). exists (xlin d a), (xlin d b). split; [now apply in_map|]. split; [now apply in_map|]. intros E. apply N. now apply Hinj. }
  destruct d; try discriminate; cbn [forced_slope] in *.
  all: try (match goal with |- context [LS_Exponential] => idtac end;
    assert (force = None) as -> by (destruct Hf as [?|[? _]]; [assumption|discriminate]);
    destruct p as [|l [|? ?]]; try discriminate; cbn [true_line fst snd] in HLine;
    pose proof (origin_exact X Y l 0 HL HS HLine me eq_refl) as O;
    assert (exists a, In a X /\ a <> 0) as EX by (destruct x as [|t x']; [congruence|]; exists t; split; [now left|];
       destruct (Hx0 t (or_introl eq_refl)) as [?|?]; [discriminate|lra]);
    specialize (O EX); destruct me; cbn [option_map] in *; rewrite O; reflexivity).
  all: assert (HNE : X <> []) by (destruct x; [congruence|discriminate]).
  all: destruct Hf as [->|[Hsh ->]]; [destruct H2 as [H2|[H2|H2]]; [|congruence|discriminate];
     (destruct me; cbn [option_map]; rewrite (line_exact X Y _ _ HL HS HLine _ (HX2 H2)); cbn [bind]; rewrite <- surjective_pairing, HP; reflexivity)|try discriminate Hsh].
  all: destruct p as [|p1 [|p2 [|? ?]]]; try discriminate HD; unfold shape_of in *; cbn [nth option_map true_line fst snd] in *; cbn [fitted_dist] in HD; injection HD as <-; cbn [valid] in Hv;
    destruct me; pose proof (slope_exact X Y _ _ HL HS HLine RRX HNE) as O1; pose proof (slope_exact X Y _ _ HL HS HLine RRY HNE) as O2.
  all: try (rewrite O1; cbn [bind]; rewrite HP; reflexivity); try (rewrite O2; cbn [bind]; rewrite HP; reflexivity).
  all: replace (1 / (1 / p2)) with p2 in O1 by (field; lra); rewrite O1; cbn [bind]; rewrite HP; reflexivity.
Qed.
