(** C169, continued: which data have no histogram, in terms of ties; what the bars add up to. *)
From Coquelicot Require Import Coquelicot.
From Coq Require Import List Arith ZArith Reals Bool Lra Lia Permutation Sorted.
From Verif Require Import Base RealFacts Gauss Ext RList NonparModel NonparSpec NonparProofs NonparProofs4 RepairModel RepairProofs RepairProofs2 TestingModel TestingSpec TestingProofs TestingProofs4 CIModel CIProofs PlotModel PlotProofs EvPlotModel EvPlotSpec EvPlotProofs EvPlotProps.
Import ListNotations.
Open Scope R_scope.

Lemma count_perm t X Y : Permutation X Y -> count t X = count t Y.
Proof.
  unfold count. induction 1 as [|x X Y H IH|x y X|X Y Z H1 IH1 H2 IH2]; [reflexivity| | |congruence].
  - cbn [filter]. destruct (t x); cbn [length]; lia.
  - cbn [filter]. destruct (t x), (t y); cbn [length]; lia.
Qed.
Lemma count_app t X Y : count t (X ++ Y) = (count t X + count t Y)%nat.
Proof. unfold count. now rewrite filter_app, app_length. Qed.
Lemma count_all t X : (forall x, In x X -> t x = true) -> count t X = length X.
Proof. intros H. unfold count. now apply filter_full. Qed.

(** The quartiles are those of linear interpolation between the sorted failures. *)
Theorem C169_quartiles : forall X s q i, Permutation X s -> StronglySorted Rle s -> (S i < length X)%nat ->
  INR i <= q * INR (length X - 1) <= INR i + 1 ->
  percentile q X = (INR i + 1 - q * INR (length X - 1)) * nth i s 0 + (q * INR (length X - 1) - INR i) * nth (S i) s 0.
Proof.
  intros X s q i HP HS Hi Hh. unfold percentile. cbv zeta. rewrite (isort_sorted_perm X s HP HS). assert (length s = length X) as L by (symmetry; now apply Permutation_length).
  set (h := q * INR (length X - 1)) in *. destruct (Rlt_le_dec h (INR i + 1)) as [A|A].
  - rewrite (floor_at h (Z.of_nat i)) by (rewrite <- INR_IZR_INZ; lra). rewrite Nat2Z.id. rewrite (nth_indep s (nth i s 0) 0) by lia. ring.
  - assert (h = INR (S i)) as E by (rewrite S_INR; lra). rewrite (floor_at h (Z.of_nat (S i))) by (rewrite <- INR_IZR_INZ; lra). rewrite Nat2Z.id. rewrite E, S_INR. ring.
Qed.
Print Assumptions C169_quartiles.
Example C169_quartiles_case : Permutation [3; 1; 2] [1; 2; 3] /\ StronglySorted Rle [1; 2; 3] /\ (1 < length [3; 1; 2])%nat /\ INR 0 <= 1 / 4 * INR (length [3; 1; 2] - 1) <= INR 0 + 1.
Proof.
  split; [apply Permutation_sym, (Permutation_app_comm [1; 2] [3])|]. split; [repeat first [apply SSorted_cons|apply SSorted_nil|apply Forall_cons|apply Forall_nil]; lra|]. split; [simpl; lia|simpl; lra].
Qed.

(** In a sorted list, a position with few smaller values before it and few larger ones after. *)
Lemma middle_value s v i : StronglySorted Rle s -> (i < length s)%nat ->
  (count (fun x => Rltb x v) s <= i)%nat -> (count (fun x => Rltb v x) s <= length s - 1 - i)%nat -> nth i s 0 = v.
Proof.
  intros HS Hi H1 H2. destruct (Rtotal_order (nth i s 0) v) as [A|[A|A]]; [exfalso|exact A|exfalso].
  - rewrite <- (firstn_skipn (S i) s), count_app in H1. rewrite (count_all _ (firstn (S i) s)) in H1; [rewrite firstn_length in H1; lia|].
    intros x Hx. apply (In_nth _ _ 0) in Hx as (j & Hj & <-). rewrite firstn_length in Hj. apply Rltb_true.
    assert (nth j (firstn (S i) s) 0 = nth j s 0) as ->. { rewrite <- (firstn_skipn (S i) s) at 2. rewrite app_nth1; [reflexivity|rewrite firstn_length; lia]. }
    eapply Rle_lt_trans; [|exact A]. apply (sorted_nth_le s HS). lia.
  - rewrite <- (firstn_skipn i s), count_app in H2. rewrite (count_all _ (skipn i s)) in H2; [rewrite skipn_length, app_length, firstn_length, skipn_length in H2; lia|].
    intros x Hx. apply (In_nth _ _ 0) in Hx as (j & Hj & <-). rewrite skipn_length in Hj. apply Rltb_true. assert (nth j (skipn i s) 0 = nth (i + j) s 0) as ->. { rewrite <- (firstn_skipn i s) at 2. rewrite app_nth2; rewrite firstn_length; [f_equal; lia|lia]. }
    eapply Rlt_le_trans; [exact A|]. apply (sorted_nth_le s HS). lia.
Qed.

(** The histogram fails as soon as at most a quarter of the failures (rounded down, of one
    fewer) are smaller and at most a quarter are larger than some value. *)
Theorem C169_ties : forall f (rc : list R) rows v, rmin f <> rmax f ->
  (4 * count (fun x => Rltb x v) f <= length f - 1)%nat -> (4 * count (fun x => Rltb v x) f <= length f - 1)%nat ->
  histogram_plot f (length rc) rows = inr Overflow_error.
Proof.
  intros f rc rows v Hr H1 H2. assert (f <> []) as Hne by (intros ->; apply Hr; reflexivity).
  apply C169_no_histogram; [exact Hne|exact Hr|].
  assert (2 <= length f)%nat as Hn. { destruct f as [|a [|b f']]; [congruence|exfalso; apply Hr; reflexivity|simpl; lia]. }
  set (s := isort Rleb f). assert (length s = length f) as L by apply isort_length.
  assert (Permutation f s) as HP by apply isort_perm. pose proof (isort_R_sorted f) as HS. fold s in HS.
  rewrite (count_perm _ _ _ HP) in H1. rewrite (count_perm _ _ _ HP) in H2. rewrite <- L in *.
  assert (forall i, (length s - 1 <= 4 * i + 3)%nat -> (4 * i <= 3 * (length s - 1) + 3)%nat -> (i < length s)%nat -> nth i s 0 = v) as Hmid.
  { intros i A B C. apply middle_value; [exact HS|exact C|lia|lia]. }
  assert (forall q, 1 / 4 <= q <= 3 / 4 -> percentile q f = v) as Hq.
  { intros q Hq. unfold percentile. cbv zeta. fold s. rewrite <- L. set (h := q * INR (length s - 1)). set (m := (length s - 1)%nat) in *.
    assert (0 <= INR m) as Hm by apply pos_INR. assert (1 / 4 * INR m <= h <= 3 / 4 * INR m) as Hh by (unfold h; nra).
    assert (0 <= rfloor h)%Z as F0 by (apply rfloor_spec; lra). set (i := Z.to_nat (rfloor h)).
    assert (INR i <= h) as F1 by (unfold i; rewrite INR_IZR_INZ, Z2Nat.id by exact F0; apply rfloor_spec; lia).
    assert (h < INR i + 1) as F2. { unfold i. rewrite INR_IZR_INZ, Z2Nat.id by exact F0. destruct (Rlt_le_dec h (IZR (rfloor h) + 1)) as [A|A]; [exact A|exfalso]. rewrite <- succ_IZR in A. apply rfloor_spec in A. lia. }
    assert (m < 4 * i + 4)%nat as G1. { apply INR_lt. rewrite plus_INR, mult_INR. simpl (INR 4). lra. }
    assert (4 * i <= 3 * m)%nat as G2. { apply INR_le. rewrite !mult_INR. simpl (INR 4). simpl (INR 3). lra. }
    rewrite (Hmid i) by (unfold m in *; lia).
    destruct (Req_EM_T h (INR i)) as [E|E]; [rewrite E; ring|].
    assert (4 * i < 3 * m)%nat as G3. { apply INR_lt. rewrite !mult_INR. simpl (INR 4). simpl (INR 3). lra. }
    rewrite (nth_indep s v 0) by (unfold m in *; lia). rewrite (Hmid (S i)) by (unfold m in *; lia). ring. }
  rewrite !Hq by lra. reflexivity.
Qed.
Print Assumptions C169_ties.

(** A sixth of the failures smaller, a sixth larger. *)
Example C169_ties_case : rmin [3; 2; 2; 1; 2; 2; 2] <> rmax [3; 2; 2; 1; 2; 2; 2] /\
  (4 * count (fun x => Rltb x 2%R) [3; 2; 2; 1; 2; 2; 2]%R <= 7 - 1)%nat /\
  (4 * count (fun x => Rltb 2%R x) [3; 2; 2; 1; 2; 2; 2]%R <= 7 - 1)%nat.
Proof.
  split. { assert (rmin [3; 2; 2; 1; 2; 2; 2] <= 1) by (apply rmin_le; do 3 right; left; reflexivity). assert (3 <= rmax [3; 2; 2; 1; 2; 2; 2]) by (apply rmax_ge; left; reflexivity). lra. }
  assert (Rltb 3 2 = false) as E1 by (apply Rltb_false; lra). assert (Rltb 2 2 = false) as E2 by (apply Rltb_false; lra). assert (Rltb 1 2 = true) as E3 by (apply Rltb_true; lra).
  assert (Rltb 2 3 = true) as E4 by (apply Rltb_true; lra). assert (Rltb 2 1 = false) as E5 by (apply Rltb_false; lra).
  unfold count. cbn [filter]. rewrite ?E1, ?E2, ?E3, ?E4, ?E5. cbn [length]. lia.
Qed.

Lemma tiles_mono lo hi l i j : tiles lo hi l -> (i <= j < length l)%nat -> left_edge (nth i l no_bar) <= left_edge (nth j l no_bar).
Proof.
  intros (_ & _ & _ & Hn & w & Hw & HF) [Hij Hj]. induction Hij as [|j Hij IH]; [apply Rle_refl|]. specialize (IH ltac:(lia)).
  rewrite <- (Hn j Hj). unfold left_edge, right_edge in *. rewrite Forall_forall in HF. assert (b_width (nth j l no_bar) = w) by (apply HF, nth_In; lia). lra.
Qed.

(** No failure is counted twice: bars that stand side by side share none. *)
Theorem C169_one_bar : forall lo hi l i j x, tiles lo hi l -> (i < length l)%nat -> (j < length l)%nat ->
  in_bar l i x = true -> in_bar l j x = true -> i = j.
Proof.
  assert (forall lo hi l i j x, tiles lo hi l -> (i < j < length l)%nat -> in_bar l i x = true -> in_bar l j x = true -> False) as H.
  { intros lo hi l i j x HT Hij Hi Hj. unfold in_bar in *. apply andb_true_iff in Hi as [_ Hi]. apply andb_true_iff in Hj as [Hj _].
    replace (S i =? length l)%nat with false in Hi by (symmetry; apply Nat.eqb_neq; lia). apply Rltb_true in Hi. apply Rleb_true in Hj.
    pose proof (tiles_mono lo hi l (S i) j HT ltac:(lia)) as M. destruct HT as (_ & _ & _ & Hn & _). rewrite (Hn i) in Hi by lia. lra. }
  intros lo hi l i j x HT Li Lj Hi Hj. destruct (Nat.lt_trichotomy i j) as [A|[A|A]]; [exfalso; eapply (H lo hi l i j x); eauto|exact A|exfalso; eapply (H lo hi l j i x); eauto].
Qed.
Print Assumptions C169_one_bar.

(** Every value from the first to the last edge is in a bar. *)
Theorem C169_some_bar : forall lo hi l x, tiles lo hi l -> lo <= x <= hi -> exists i, (i < length l)%nat /\ in_bar l i x = true.
Proof.
  intros lo hi l x HT [H1 H2]. destruct HT as (Hne & H0 & HL & Hn & _). assert (0 < length l)%nat as Hl by (destruct l; [congruence|simpl; lia]).
  assert (forall n, (n < length l)%nat -> left_edge (nth (length l - 1 - n) l no_bar) <= x -> exists i, (i < length l)%nat /\ in_bar l i x = true) as G.
  { induction n as [|n IH]; intros Hlt Hx.
    - exists (length l - 1)%nat. split; [lia|]. unfold in_bar. rewrite Nat.sub_0_r in Hx. replace (S (length l - 1) =? length l)%nat with true by (symmetry; apply Nat.eqb_eq; lia).
      apply andb_true_iff. split; [now apply Rleb_true|]. apply Rleb_true. rewrite HL. exact H2.
    - set (i := (length l - 1 - S n)%nat) in *. assert (length l - 1 - n = S i)%nat as E by (unfold i; lia). rewrite E in IH.
      destruct (Rle_lt_dec (left_edge (nth (S i) l no_bar)) x) as [A|A]; [apply IH; [lia|exact A]|].
      exists i. split; [unfold i; lia|]. unfold in_bar. replace (S i =? length l)%nat with false by (symmetry; apply Nat.eqb_neq; unfold i; lia).
      apply andb_true_iff. split; [now apply Rleb_true|]. apply Rltb_true. rewrite (Hn i) by (unfold i; lia). exact A. }
  apply (G (length l - 1)%nat); [lia|]. replace (length l - 1 - (length l - 1))%nat with 0%nat by lia. rewrite H0. exact H1.
Qed.
Print Assumptions C169_some_bar.
