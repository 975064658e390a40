(** Kolmogorov-Smirnov and chi-squared tests. *)
From Coquelicot Require Import Coquelicot.
From Coq Require Import List Arith ZArith Reals Bool Lra Lia Sorting Permutation.
From Verif Require Import Base RealFacts Gauss NonparModel NonparProofs RList RepairModel RepairProofs RepairProofs2 TestingModel TestingSpec.
Import ListNotations.
Open Scope R_scope.

Definition le_b (x d : R) : bool := if Rle_dec d x then true else false.
Lemma le_b_true x d : le_b x d = true <-> d <= x.
Proof. unfold le_b. destruct (Rle_dec d x); split; intros; auto; discriminate || lra. Qed.

Lemma filter_perm_length {A} (f : A -> bool) l m : Permutation l m -> length (filter f l) = length (filter f m).
Proof.
  intros H. induction H as [|x l m H IH|x y l|l m k H1 IH1 H2 IH2]; simpl; try congruence.
  - destruct (f x); simpl; congruence.
  - destruct (f x), (f y); reflexivity.
Qed.
Lemma filter_all {A} (f : A -> bool) l : (forall x, In x l -> f x = true) -> filter f l = l.
Proof.
  induction l as [|x l IH]; intros H; simpl; [reflexivity|]. rewrite H by now left. rewrite IH; [reflexivity|]. intros y Hy. apply H. now right.
Qed.
Lemma filter_none {A} (f : A -> bool) l : (forall x, In x l -> f x = false) -> filter f l = [].
Proof.
  induction l as [|x l IH]; intros H; simpl; [reflexivity|]. rewrite H by now left. apply IH. intros y Hy. apply H. now right.
Qed.

Lemma ecdf_sorted data x : ecdf data x = INR (length (filter (le_b x) (isort Rleb data))) / INR (length data).
Proof. unfold ecdf. do 2 f_equal. apply filter_perm_length. apply isort_perm. Qed.

Lemma sorted_nth s i j : StronglySorted Rle s -> (i <= j < length s)%nat -> nth i s 0 <= nth j s 0.
Proof.
  intros H. revert i j. induction H as [|x s H IH Hx]; intros i j Hij; [simpl in Hij; lia|].
  destruct j as [|j]; [replace i with 0%nat by lia; lra|]. simpl in Hij. destruct i as [|i]; simpl.
  - rewrite Forall_forall in Hx. apply Hx. apply nth_In. lia.
  - apply IH. lia.
Qed.

(** Elements not above x come first. *)
Lemma sorted_count s x i : StronglySorted Rle s -> (i < length s)%nat ->
  (nth i s 0 <= x <-> (i < length (filter (le_b x) s))%nat).
Proof.
  intros H. revert i. induction H as [|y s H IH Hy]; intros i Hi; [simpl in Hi; lia|]. simpl filter.
  destruct (le_b x y) eqn:E.
  - apply le_b_true in E. destruct i as [|i]; simpl; [split; intros; [lia|lra]|]. simpl in Hi. rewrite IH by lia. split; lia.
  - assert (x < y) as L. { destruct (Rlt_or_le x y) as [A|A]; [exact A|]. apply le_b_true in A. congruence. }
    rewrite filter_none.
    + simpl length. split; [|lia]. intros A. exfalso. destruct i as [|i]; simpl in A; [lra|].
      rewrite Forall_forall in Hy. simpl in Hi. assert (i < length s)%nat as Hi2 by lia. specialize (Hy (nth i s 0) (nth_In s 0 Hi2)). lra.
    + intros z Hz. rewrite Forall_forall in Hy. specialize (Hy z Hz). destruct (le_b x z) eqn:F; [|reflexivity].
      apply le_b_true in F. lra.
Qed.
Lemma filter_length_le {A} (f : A -> bool) l : (length (filter f l) <= length l)%nat.
Proof. induction l as [|x l IH]; simpl; [lia|]. destruct (f x); simpl; lia. Qed.

Lemma in_dev F (s : list R) (h : R -> R) d k0 :
  In d (map (fun fi => Rabs (fst fi - h (snd fi))) (combine (map F s) (map INR (seq k0 (length s))))) <->
  exists i, (i < length s)%nat /\ d = Rabs (F (nth i s 0) - h (INR (k0 + i))).
Proof.
  revert k0. induction s as [|x s IH]; intros k0; simpl.
  - split; [intros []|intros (i & Hi & _); lia].
  - rewrite IH. split.
    + intros [E|(i & Hi & E)].
      * exists 0%nat. split; [lia|]. rewrite Nat.add_0_r. simpl. now symmetry.
      * exists (S i). split; [lia|]. rewrite Nat.add_succ_r. exact E.
    + intros (i & Hi & E). destruct i as [|i].
      * left. rewrite Nat.add_0_r in E. simpl in E. now symmetry.
      * right. exists i. split; [lia|]. rewrite Nat.add_succ_r in E. exact E.
Qed.

Lemma in_ks F data d : In d (ks_deviations F data) <->
  exists i t, (i < length data)%nat /\ (t = i \/ t = S i)%nat /\
    d = Rabs (F (nth i (isort Rleb data) 0) - INR t / INR (length data)).
Proof.
  unfold ks_deviations. rewrite in_app_iff.
  rewrite (in_dev F (isort Rleb data) (fun x => x / INR (length (isort Rleb data)))).
  rewrite (in_dev F (isort Rleb data) (fun x => (x - 1) / INR (length (isort Rleb data)))).
  rewrite isort_length. split.
  - intros [(i & Hi & E)|(i & Hi & E)].
    + exists i, (S i). auto.
    + exists i, i. repeat split; auto. rewrite E. do 3 f_equal. rewrite plus_INR. simpl. ring.
  - intros (i & t & Hi & [->| ->] & E); [right|left]; exists i; (split; [exact Hi|]); rewrite E; do 2 f_equal.
    rewrite plus_INR. simpl. f_equal. ring.
Qed.

Lemma ks_ne F data : data <> [] -> ks_deviations F data <> [].
Proof.
  intros H E. destruct data as [|x l]; [congruence|].
  assert (In (Rabs (F (nth 0 (isort Rleb (x :: l)) 0) - INR 0 / INR (length (x :: l)))) (ks_deviations F (x :: l))) as A.
  { apply in_ks. exists 0%nat, 0%nat. split; [simpl; lia|auto]. }
  rewrite E in A. destruct A.
Qed.

Lemma ks_sup F data : data <> [] -> (forall x y, x <= y -> F x <= F y) -> (forall x, 0 <= F x <= 1) -> continuity F ->
  is_lub (fun d => exists x, d = Rabs (ecdf data x - F x)) (rmax (ks_deviations F data)).
Proof.
  intros Hne Hmono Hrange Hcont. set (s := isort Rleb data). set (n := length data).
  assert (StronglySorted Rle s) as Hs by apply isort_R_sorted.
  assert (length s = n) as Hl by apply isort_length.
  assert (0 < INR n) as Hn. { apply lt_0_INR. unfold n. destruct data; [congruence|simpl; lia]. }
  assert (forall i t, (i < n)%nat -> (t = i \/ t = S i)%nat -> Rabs (F (nth i s 0) - INR t / INR n) <= rmax (ks_deviations F data)) as Hdev.
  { intros i t Hi Ht. apply rmax_ge, in_ks. exists i, t. auto. }
  assert (0 <= rmax (ks_deviations F data)) as Hpos.
  { eapply Rle_trans; [apply Rabs_pos|]. apply (Hdev 0%nat 0%nat); [|auto]. apply INR_lt. simpl. exact Hn. }
  split.
  - intros d [x ->]. rewrite ecdf_sorted. fold s. fold n. set (i := length (filter (le_b x) s)).
    pose proof (filter_length_le (le_b x) s) as Hi. fold i in Hi. rewrite Hl in Hi.
    destruct (Rle_or_lt (INR i / INR n) (F x)) as [L|L].
    + rewrite Rabs_left1 by lra. destruct (Nat.eq_dec i n) as [E|E].
      * rewrite E. unfold Rdiv. rewrite Rinv_r by lra. pose proof (Hrange x). lra.
      * pose proof (Hdev i i ltac:(lia) ltac:(auto)) as D.
        assert (x <= nth i s 0) as A.
        { destruct (Rle_or_lt x (nth i s 0)) as [A|A]; [exact A|exfalso].
          pose proof (proj1 (sorted_count s x i Hs ltac:(lia)) ltac:(lra)). fold i in H. lia. }
        apply Hmono in A. rewrite Rabs_pos_eq in D by lra. lra.
    + rewrite Rabs_pos_eq by lra. destruct (Nat.eq_dec i 0) as [Ei|Ei].
      * exfalso. rewrite Ei in L. simpl in L. unfold Rdiv in L. rewrite Rmult_0_l in L. pose proof (Hrange x). lra.
      * pose proof (Hdev (i - 1)%nat i ltac:(lia) ltac:(lia)) as D.
        assert (nth (i - 1) s 0 <= x) as A. { apply (sorted_count s x (i - 1) Hs); [lia|]. fold i. lia. }
        apply Hmono in A. rewrite Rabs_left1 in D by lra. lra.
  - intros b Hb. destruct (Rle_or_lt (rmax (ks_deviations F data)) b) as [A|A]; [exact A|exfalso].
    pose proof (rmax_in _ (ks_ne F data Hne)) as Hin. apply in_ks in Hin. destruct Hin as (i & t & Hi & Ht & E).
    fold s n in Hi, E. set (v := nth i s 0) in *. rewrite E in A.
    destruct (Rle_or_lt (INR t / INR n) (F v)) as [L|L].
    + rewrite Rabs_pos_eq in A by lra. set (eps := F v - INR t / INR n - b) in *.
      destruct (Hcont v eps ltac:(unfold eps; lra)) as (del & Hdel & Hc). simpl in Hc. unfold R_dist in Hc.
      assert (Rabs (F (v - del / 2) - F v) < eps) as Hx.
      { apply Hc. split; [split; [exact I|lra]|]. rewrite Rabs_left; lra. }
      set (x := v - del / 2) in *. specialize (Hb (Rabs (ecdf data x - F x)) (ex_intro _ x eq_refl)).
      rewrite ecdf_sorted in Hb. fold s n in Hb. set (c := length (filter (le_b x) s)) in *.
      assert (c <= t)%nat as Hct.
      { destruct (Nat.le_gt_cases c i) as [B|B]; [lia|exfalso].
        apply (sorted_count s x i Hs) in B; [|lia]. fold v in B. unfold x in B. lra. }
      assert (INR c / INR n <= INR t / INR n) as Hq.
      { apply Rmult_le_compat_r; [left; now apply Rinv_0_lt_compat|]. now apply le_INR. }
      apply Rabs_def2 in Hx. apply Rabs_le_between in Hb. unfold eps in *. lra.
    + rewrite Rabs_left1 in A by lra. specialize (Hb (Rabs (ecdf data v - F v)) (ex_intro _ v eq_refl)).
      rewrite ecdf_sorted in Hb. fold s n in Hb. set (c := length (filter (le_b v) s)) in *.
      assert (t <= c)%nat as Hct.
      { assert (i < c)%nat; [|lia]. apply (sorted_count s v i Hs); [lia|]. fold v. lra. }
      assert (INR t / INR n <= INR c / INR n) as Hq.
      { apply Rmult_le_compat_r; [left; now apply Rinv_0_lt_compat|]. now apply le_INR. }
      apply Rabs_le_between in Hb. lra.
Qed.

Lemma ks_test_spec F critical negative_ok data significance KS accept :
  ks_test F critical negative_ok data significance = Ok (KS, accept) ->
  data <> [] /\ 0 < significance <= 1 / 2 /\ (accept = true <-> KS < critical) /\
  ((forall x y, x <= y -> F x <= F y) -> (forall x, 0 <= F x <= 1) -> continuity F ->
   is_lub (fun d => exists x, d = Rabs (ecdf data x - F x)) KS).
Proof.
  unfold ks_test. destruct data as [|x0 l]; [discriminate|]. set (data := x0 :: l).
  destruct (_ && _); [discriminate|]. destruct (Rleb significance 0) eqn:E1; [discriminate|].
  destruct (Rltb (1 / 2) significance) eqn:E2; [discriminate|]. cbn [orb]. intros H.
  injection H as <- <-. apply Rleb_false in E1. apply Rltb_false in E2. split; [discriminate|]. split; [lra|].
  split; [apply Rltb_true|]. intros. apply ks_sup; auto. discriminate.
Qed.

(** * Chi-squared *)

Definition rangeb (lo hi x : R) : bool := Rleb lo x && Rleb x hi.

Lemma increasing_last edges lo : increasing_edges (lo :: edges) = true -> lo <= last (lo :: edges) 0.
Proof.
  revert lo. induction edges as [|hi r IH]; intros lo H; [simpl; lra|].
  cbn [increasing_edges] in H. apply andb_true_iff in H. destruct H as [H1 H2]. apply Rleb_true in H1.
  specialize (IH hi H2). change (last (lo :: hi :: r) 0) with (last (hi :: r) 0). lra.
Qed.

Lemma histogram_sum lo hi r data : increasing_edges (lo :: hi :: r) = true ->
  list_sum (histogram (lo :: hi :: r) data) = length (filter (rangeb lo (last (hi :: r) 0)) data).
Proof.
  revert lo hi. induction r as [|z r IH]; intros lo hi H.
  - cbn [histogram list_sum fold_right]. rewrite Nat.add_0_r. reflexivity.
  - cbn [increasing_edges] in H. apply andb_true_iff in H. destruct H as [H1 H2].
    change (histogram (lo :: hi :: z :: r) data) with
      (length (filter (fun x => Rleb lo x && Rltb x hi) data) :: histogram (hi :: z :: r) data).
    cbn [list_sum fold_right]. change (fold_right Nat.add 0%nat) with list_sum. rewrite IH by exact H2.
    pose proof (increasing_last (z :: r) hi H2) as HL. change (last (hi :: z :: r) 0) with (last (z :: r) 0) in *.
    apply Rleb_true in H1. set (top := last (z :: r) 0) in *. clearbody top. clear IH H2.
    induction data as [|x data IH]; simpl; [reflexivity|].
    destruct (rangeb lo top x) eqn:E0; destruct (Rleb lo x && Rltb x hi) eqn:E1; destruct (rangeb hi top x) eqn:E2;
      simpl; rewrite <- IH; try lia; exfalso; unfold rangeb in *;
      rewrite ?andb_true_iff, ?andb_false_iff, ?Rleb_true, ?Rltb_true, ?Rleb_false, ?Rltb_false in *; lra.
Qed.

Lemma filter_full {A} (f : A -> bool) l : length (filter f l) = length l <-> (forall x, In x l -> f x = true).
Proof.
  split.
  - induction l as [|x l IH]; intros H y Hy; [destruct Hy|]. simpl in H. pose proof (filter_length_le f l).
    destruct (f x) eqn:E; [|simpl in H; lia]. simpl in H. destruct Hy as [->|Hy]; [exact E|]. apply IH; [lia|exact Hy].
  - intros H. now rewrite filter_all.
Qed.

Lemma histogram_covers edges data : (2 <= length edges)%nat -> increasing_edges edges = true ->
  (list_sum (histogram edges data) = length data <-> Forall (in_range edges) data).
Proof.
  intros Hl Hi. destruct edges as [|lo [|hi r]]; try (simpl in Hl; lia).
  rewrite histogram_sum by assumption. rewrite filter_full, Forall_forall. unfold in_range. cbn [hd].
  change (last (lo :: hi :: r) 0) with (last (hi :: r) 0).
  split; intros H x Hx; specialize (H x Hx).
  - unfold rangeb in H. rewrite andb_true_iff, !Rleb_true in H. exact H.
  - unfold rangeb. now rewrite andb_true_iff, !Rleb_true.
Qed.

Lemma histogram_length edges data : length (histogram edges data) = (length edges - 1)%nat.
Proof.
  induction edges as [|lo [|hi r] IH]; [reflexivity..|].
  change (length (histogram (lo :: hi :: r) data)) with (S (length (histogram (hi :: r) data))). rewrite IH. simpl. lia.
Qed.
Lemma np_diff_length l : length (np_diff l) = (length l - 1)%nat.
Proof.
  induction l as [|lo [|hi r] IH]; [reflexivity..|].
  change (length (np_diff (lo :: hi :: r))) with (S (length (np_diff (hi :: r)))). rewrite IH. simpl. lia.
Qed.
Lemma np_diff_nonneg F edges : increasing_edges edges = true -> (forall x y, x <= y -> F x <= F y) ->
  Forall (fun d => 0 <= d) (np_diff (map F edges)).
Proof.
  intros H HF. induction edges as [|lo [|hi r] IH]; [constructor..|].
  cbn [increasing_edges] in H. apply andb_true_iff in H. destruct H as [H1 H2]. apply Rleb_true in H1.
  change (np_diff (map F (lo :: hi :: r))) with ((F hi - F lo) :: np_diff (map F (hi :: r))). constructor; [|now apply IH].
  specialize (HF _ _ H1). lra.
Qed.

Record chi2_facts (cdf : R -> R) (k : nat) (critical : nat -> R) (data : list R) (given : option (list R)) (auto : list R) (r : chi2_result) : Prop := {
  cf_edges : (match given with Some e => (list_sum (histogram e data) = length data /\ c_edges r = e) \/
                                  (list_sum (histogram e data) <> length data /\ c_edges r = auto)
                        | None => c_edges r = auto end);
  cf_incr : increasing_edges (c_edges r) = true;
  cf_obs : c_observed r = histogram (c_edges r) data;
  cf_len : length (c_observed r) = length (c_expected r) /\ (k + 1 < length (c_observed r))%nat;
  cf_total : rsum (np_diff (map cdf (c_edges r))) <> 0;
  cf_exp : c_expected r = map (fun x => INR (length data) * (x / rsum (np_diff (map cdf (c_edges r))))) (np_diff (map cdf (c_edges r)));
  cf_nz : Forall (fun x => x <> 0) (c_expected r);
  cf_stat : c_statistic r = rsum (map (fun oe => (INR (fst oe) - snd oe) ^ 2 / snd oe) (combine (c_observed r) (c_expected r)));
  cf_crit : c_critical r = critical (length (c_observed r) - k - 1)%nat;
  cf_accept : c_accept r = Rltb (c_statistic r) (c_critical r);
  cf_data : data <> []
}.

Lemma chi2_inv cdf k critical neg data sig given auto r :
  chi2_test cdf k critical neg data sig given auto = Ok r -> chi2_facts cdf k critical data given auto r.
Proof.
  unfold chi2_test. destruct data as [|x0 l]; [discriminate|]. set (data := x0 :: l).
  assert (data <> []) as Hd by discriminate. clearbody data.
  destruct (_ && _); [discriminate|]. destruct (_ || _); [discriminate|].
  set (e0 := match given with None => auto | Some e => e end).
  unfold np_histogram at 1. destruct (increasing_edges e0) eqn:E0; cbn [bind]; [|discriminate].
  assert (forall e observed, increasing_edges e = true -> observed = histogram e data ->
    (match given with Some e' => (list_sum (histogram e' data) = length data /\ e = e') \/
                             (list_sum (histogram e' data) <> length data /\ e = auto)
                 | None => e = auto end) ->
    (if forallb (fun x : R => Rltb x 0) e && negb neg then Err TypeError
     else let d := np_diff (map cdf e) in let total := rsum d in
       if Req_EM_T total 0 then Err ZeroDivisionError
       else let expected := map (fun x : R => INR (length data) * (x / total)) d in
            let n := length observed in
            if (n <=? k + 1)%nat then Err ValueError
            else if existsb (fun x : R => if Req_EM_T x 0 then true else false) expected then Err ZeroDivisionError
            else let statistic := rsum (map (fun oe : nat * R => (INR (fst oe) - snd oe) ^ 2 / snd oe) (combine observed expected)) in
                 let crit := critical (n - k - 1)%nat in
                 Ok {| c_edges := e; c_observed := observed; c_expected := expected; c_statistic := statistic;
                       c_critical := crit; c_accept := Rltb statistic crit |}) = Ok r -> chi2_facts cdf k critical data given auto r) as Hmain.
  { intros e observed He Ho Hg. destruct (_ && _); [discriminate|]. cbv zeta.
    destruct (Req_EM_T (rsum (np_diff (map cdf e))) 0) as [|Ht]; [discriminate|].
    destruct (Nat.leb_spec (length observed) (k + 1)) as [|Hk]; [discriminate|].
    destruct (existsb _ _) eqn:Ex; [discriminate|]. intros H. injection H as <-.
    constructor; cbn [c_edges c_observed c_expected c_statistic c_critical c_accept]; auto.
    - split; [|exact Hk]. rewrite Ho, histogram_length, map_length, np_diff_length, map_length. reflexivity.
    - apply Forall_forall. intros x Hx E. assert (existsb (fun x : R => if Req_EM_T x 0 then true else false) (map (fun x : R => INR (length data) * (x / rsum (np_diff (map cdf e)))) (np_diff (map cdf e))) = true); [|congruence].
      apply existsb_exists. exists x. split; [exact Hx|]. destruct (Req_EM_T x 0); congruence. }
  destruct (Nat.eqb_spec (list_sum (histogram e0 data)) (length data)) as [Es|Es]; cbn [bind].
  - apply Hmain; auto. destruct given; cbn in e0; subst e0; auto.
  - unfold np_histogram. destruct (increasing_edges auto) eqn:Ea; cbn [bind]; [|discriminate].
    apply Hmain; auto. destruct given; cbn in e0; subst e0; auto.
Qed.

Lemma rsum_terms_zero (o : list nat) (e : list R) : length o = length e -> Forall (fun x => 0 < x) e ->
  let st := rsum (map (fun oe => (INR (fst oe) - snd oe) ^ 2 / snd oe) (combine o e)) in
  0 <= st /\ (st = 0 <-> map INR o = e).
Proof.
  intros Hl He. revert o Hl. induction He as [|x e Hx He IH]; intros o Hl; destruct o as [|n o]; try discriminate Hl.
  - cbn. split; [lra|tauto].
  - cbv zeta in *. cbn [combine map fst snd]. rewrite rsum_cons. injection Hl as Hl. destruct (IH o Hl) as [H1 H2].
    assert (0 <= (INR n - x) ^ 2 / x) as H3. { apply Rmult_le_pos; [apply pow2_ge_0|left; now apply Rinv_0_lt_compat]. }
    split; [lra|]. split; intros E.
    + assert ((INR n - x) ^ 2 / x = 0) as Ea by lra. f_equal; [|apply H2; lra].
      assert ((INR n - x) ^ 2 = 0) as Eb. { replace ((INR n - x) ^ 2) with ((INR n - x) ^ 2 / x * x) by (field; lra). rewrite Ea. ring. }
      assert (INR n - x = 0); [|lra]. destruct (Req_dec (INR n - x) 0) as [Z|Z]; [exact Z|]. exfalso. now apply (pow_nonzero _ 2 Z).
    + injection E as E1 E2. apply H2 in E2. rewrite E2, E1. unfold Rdiv. rewrite Rminus_diag_eq by reflexivity. ring.
Qed.

Lemma chi2_full cdf k critical neg data sig given auto r : (forall x y, x <= y -> cdf x <= cdf y) ->
  chi2_test cdf k critical neg data sig given auto = Ok r ->
  (list_sum (c_observed r) = length data <-> Forall (in_range (c_edges r)) data) /\
  rsum (c_expected r) = INR (length data) /\
  Forall (fun x => 0 < x) (c_expected r) /\
  0 <= c_statistic r /\ (c_statistic r = 0 <-> map INR (c_observed r) = c_expected r) /\
  (c_accept r = true <-> c_statistic r < critical (length (c_observed r) - k - 1)%nat).
Proof.
  intros HF H. apply chi2_inv in H. destruct H as [? ? Ho [Hl1 Hl2] Ht He Hnz Hs Hc Ha Hd].
  assert (2 <= length (c_edges r))%nat as Hlen. { rewrite Ho, histogram_length in Hl2. lia. }
  set (d := np_diff (map cdf (c_edges r))) in *.
  assert (Forall (fun x => 0 <= x) d) as Hdn by (apply np_diff_nonneg; assumption).
  assert (0 < rsum d) as Hpos. { pose proof (rsum_nonneg d Hdn). lra. }
  assert (0 < INR (length data)) as HN. { apply lt_0_INR. destruct data; [congruence|simpl; lia]. }
  assert (Forall (fun x => 0 < x) (c_expected r)) as Hep.
  { rewrite Forall_forall in *. intros x Hx. specialize (Hnz x Hx). rewrite He in Hx. apply in_map_iff in Hx.
    destruct Hx as (y & <- & Hy). specialize (Hdn y Hy).
    assert (0 <= INR (length data) * (y / rsum d)); [|lra].
    apply Rmult_le_pos; [lra|]. apply Rmult_le_pos; [lra|left; now apply Rinv_0_lt_compat]. }
  pose proof (rsum_terms_zero (c_observed r) (c_expected r) Hl1 Hep) as [S1 S2].
  split; [rewrite Ho; now apply histogram_covers|]. split.
  { rewrite He. rewrite (rsum_ext _ (fun x => (INR (length data) / rsum d) * x)) by (intros; field; lra).
    rewrite rsum_scal, map_id. field. lra. }
  split; [exact Hep|]. rewrite Hs. split; [exact S1|]. split; [exact S2|].
  rewrite Ha, Hc, Hs. apply Rltb_true.
Qed.

(** The numpy bins cover the data, so the user always gets bins that do. *)
Lemma chi2_covered cdf k critical neg data sig given auto r :
  chi2_test cdf k critical neg data sig given auto = Ok r -> Forall (in_range auto) data ->
  list_sum (c_observed r) = length data.
Proof.
  intros H Ha. apply chi2_inv in H. destruct H as [Hg Hi Ho [Hl1 Hl2] Ht He Hnz Hs Hc Hacc Hd].
  assert (2 <= length (c_edges r))%nat as Hlen. { rewrite Ho, histogram_length in Hl2. lia. }
  rewrite Ho. destruct given as [e|].
  - destruct Hg as [[E1 E2]|[E1 E2]]; rewrite E2 in *; [exact E1|now apply histogram_covers].
  - rewrite Hg in *. now apply histogram_covers.
Qed.
