(** Proofs about the plots of Fit_Everything. *)
From Coquelicot Require Import Coquelicot.
From Coq Require Import List Arith ZArith Reals Bool Lra Lia Permutation Sorted.
From Verif Require Import Base RealFacts Gauss Ext RList NonparModel NonparSpec NonparProofs NonparProofs4 RepairModel RepairProofs RepairProofs2 TestingModel TestingSpec TestingProofs TestingProofs4 CIModel CIProofs PlotModel PlotProofs EvPlotModel EvPlotSpec.
Import ListNotations.
Open Scope R_scope.

Lemma nth_combine {A B} (l : list A) (m : list B) i a b : (i < length l)%nat -> (i < length m)%nat -> nth i (combine l m) (a, b) = (nth i l a, nth i m b).
Proof.
  revert m i. induction l as [|x l IH]; intros m i H1 H2; [simpl in H1; lia|]. destruct m as [|y m]; [simpl in H2; lia|].
  destruct i; [reflexivity|]. simpl in *. apply IH; lia.
Qed.
Lemma nth_map_in {A B} (h : A -> B) l i a b : (i < length l)%nat -> nth i (map h l) b = h (nth i l a).
Proof. intros Hi. rewrite (nth_indep _ b (h a)) by now rewrite map_length. apply map_nth. Qed.

Lemma centres_length l : length (centres l) = (length l - 1)%nat.
Proof.
  induction l as [|lo [|hi r] IH]; [reflexivity..|].
  change (length (centres (lo :: hi :: r))) with (S (length (centres (hi :: r)))). rewrite IH. simpl. lia.
Qed.
Lemma centres_nth l : forall i, (S i < length l)%nat -> nth i (centres l) 0 = (nth i l 0 + nth (S i) l 0) / 2.
Proof.
  induction l as [|lo [|hi r] IH]; intros i Hi; [simpl in Hi; lia..|].
  destruct i; [reflexivity|]. change (nth (S i) (centres (lo :: hi :: r)) 0) with (nth i (centres (hi :: r)) 0).
  rewrite IH by (simpl in *; lia). reflexivity.
Qed.
Lemma diff_nth l : forall i, (S i < length l)%nat -> nth i (np_diff l) 0 = nth (S i) l 0 - nth i l 0.
Proof.
  induction l as [|lo [|hi r] IH]; intros i Hi; [simpl in Hi; lia..|].
  destruct i; [reflexivity|]. change (nth (S i) (np_diff (lo :: hi :: r)) 0) with (nth i (np_diff (hi :: r)) 0).
  rewrite IH by (simpl in *; lia). reflexivity.
Qed.
Lemma histogram_nth l X : forall i, (S i < length l)%nat -> nth i (histogram l X) 0%nat =
  count (fun x => Rleb (nth i l 0) x && (if (S (S i) =? length l)%nat then Rleb x (nth (S i) l 0) else Rltb x (nth (S i) l 0))) X.
Proof.
  induction l as [|lo [|hi r] IH]; intros i Hi; [simpl in Hi; lia..|].
  destruct i.
  - cbn [histogram nth]. unfold count. f_equal. apply filter_ext. intros x. destruct r; reflexivity.
  - change (nth (S i) (histogram (lo :: hi :: r) X) 0%nat) with (nth i (histogram (hi :: r) X) 0%nat).
    rewrite IH by (simpl in *; lia). reflexivity.
Qed.
Lemma cumsum_nth l : forall i a, (i < length l)%nat -> nth i (cumsum a l) 0 = a + rsum (firstn (S i) l).
Proof.
  induction l as [|x l IH]; intros i a Hi; [simpl in Hi; lia|]. destruct i; [simpl; lra|].
  change (nth (S i) (cumsum a (x :: l)) 0) with (nth i (cumsum (a + x) l) 0). rewrite IH by (simpl in Hi; lia).
  change (firstn (S (S i)) (x :: l)) with (x :: firstn (S i) l). unfold rsum at 2. cbn [fold_right]. fold (rsum (firstn (S i) l)). lra.
Qed.
Lemma rsum_scaled (c : R) (l : list nat) : rsum (map (fun n => INR n / c) l) = INR (list_sum l) / c.
Proof.
  induction l as [|x l IH]; [unfold rsum; simpl; unfold Rdiv; lra|]. unfold rsum in *. cbn [map fold_right list_sum]. rewrite IH.
  change (fold_right Nat.add 0%nat l) with (list_sum l). rewrite plus_INR. unfold Rdiv. lra.
Qed.

Lemma edges_from l : forall i, (i < length l)%nat -> increasing_edges l = true -> nth 0 l 0 <= nth i l 0.
Proof.
  induction l as [|lo [|hi r] IH]; intros i Hi H; [simpl in Hi; lia| |].
  - simpl in Hi. assert (i = 0)%nat as -> by lia. apply Rle_refl.
  - destruct i; [apply Rle_refl|]. cbn [increasing_edges] in H. apply andb_true_iff in H. destruct H as [H1 H2]. apply Rleb_true in H1.
    specialize (IH i ltac:(simpl in *; lia) H2). cbn [nth] in IH |- *. lra.
Qed.
Lemma split_count (lo hi e : R) (last : bool) X : lo <= hi <= e ->
  (count (fun x => Rleb lo x && Rltb x hi) X + count (fun x => Rleb hi x && (if last then Rleb x e else Rltb x e)) X)%nat =
  count (fun x => Rleb lo x && (if last then Rleb x e else Rltb x e)) X.
Proof.
  intros H. unfold count. induction X as [|x X IH]; [reflexivity|]. cbn [filter].
  destruct (Rleb lo x && Rltb x hi) eqn:E0; destruct (Rleb hi x && (if last then Rleb x e else Rltb x e)) eqn:E1;
    destruct (Rleb lo x && (if last then Rleb x e else Rltb x e)) eqn:E2; cbn [length]; rewrite <- IH; try lia; exfalso; destruct last;
      rewrite ?andb_true_iff, ?andb_false_iff, ?Rleb_true, ?Rltb_true, ?Rleb_false, ?Rltb_false in *; lra.
Qed.
Lemma hist_prefix l X : forall i, (S i < length l)%nat -> increasing_edges l = true -> list_sum (firstn (S i) (histogram l X)) =
  count (fun x => Rleb (nth 0 l 0) x && (if (S (S i) =? length l)%nat then Rleb x (nth (S i) l 0) else Rltb x (nth (S i) l 0))) X.
Proof.
  induction l as [|lo [|hi r] IH]; intros i Hi H; [simpl in Hi; lia..|].
  change (histogram (lo :: hi :: r) X) with (nth 0 (histogram (lo :: hi :: r) X) 0%nat :: histogram (hi :: r) X).
  rewrite firstn_cons. change (list_sum (?a :: ?b)) with (a + list_sum b)%nat.
  destruct i.
  - rewrite histogram_nth by exact Hi. rewrite firstn_O. cbn [list_sum fold_right]. rewrite Nat.add_0_r. reflexivity.
  - cbn [increasing_edges] in H. apply andb_true_iff in H. destruct H as [H1 H2]. apply Rleb_true in H1.
    rewrite IH by (simpl in *; lia || exact H2). rewrite histogram_nth by lia. replace (2 =? length (lo :: hi :: r))%nat with false by (symmetry; apply Nat.eqb_neq; simpl in *; lia).
    cbn [nth]. pose proof (edges_from (hi :: r) (S i) ltac:(simpl in *; lia) H2) as H3. cbn [nth] in H3.
    change (S (S (S i)) =? length (lo :: hi :: r))%nat with (S (S i) =? length (hi :: r))%nat. apply split_count. lra.
Qed.

(** ** The bars *)
Section Bars.
  Variables (X : list R) (k : nat).
  Hypothesis (Hk : (0 < k)%nat) (Hs : rmin X < rmax X).
  Let bins := linspace (rmin X) (rmax X) (S k).
  Let w := (rmax X - rmin X) / INR k.
  Lemma Kpos : 0 < INR k.
  Proof using Hk Hs. apply lt_0_INR. exact Hk. Qed.
  Lemma w_pos : 0 < w.
  Proof using Hk Hs. unfold w. apply Rdiv_lt_0_compat; [lra|apply Kpos]. Qed.
  Lemma bins_length : length bins = S k.
  Proof using Hk Hs. apply linspace_length. Qed.
  Lemma bins_nth i : (i <= k)%nat -> nth i bins 0 = rmin X + INR i * w.
  Proof using Hk Hs. intros Hi. unfold bins. rewrite linspace_nth by lia. replace (S k - 1)%nat with k by lia. reflexivity. Qed.
  Lemma widths_all : np_diff bins = repeat w k.
  Proof using Hk Hs.
    assert (length (np_diff bins) = k) as L by (rewrite np_diff_length, bins_length; lia).
    apply nth_ext with 0 0; [now rewrite repeat_length|]. intros i Hi. rewrite L in Hi. rewrite diff_nth by (rewrite bins_length; lia).
    rewrite !bins_nth by lia. rewrite S_INR. rewrite nth_repeat_lt by lia. lra.
  Qed.

  Lemma bins_increasing : increasing_edges bins = true.
  Proof using Hk Hs.
    assert (forall l, (forall i, (S i < length l)%nat -> nth i l 0 <= nth (S i) l 0) -> increasing_edges l = true) as G.
    { clear. induction l as [|lo [|hi r] IH]; intros H; [reflexivity..|]. cbn [increasing_edges]. apply andb_true_iff. split; [apply Rleb_true; apply (H 0%nat); simpl; lia|].
      apply IH. intros i Hi. apply (H (S i)). simpl in *. lia. }
    apply G. intros i Hi. rewrite bins_length in Hi. rewrite !bins_nth by lia. rewrite S_INR. pose proof w_pos. lra.
  Qed.
  Lemma counts_length : length (histogram bins X) = k.
  Proof using Hk Hs. rewrite histogram_length, bins_length. lia. Qed.
  Lemma X_ne : X <> [].
  Proof using Hk Hs. intros ->. simpl in Hs. lra. Qed.
  Lemma counts_total : list_sum (histogram bins X) = length X.
  Proof using Hk Hs.
    apply histogram_covers; [rewrite bins_length; lia|apply bins_increasing|]. apply Forall_forall. intros x Hx. unfold in_range.
    assert (hd 0 bins = nth 0 bins 0) as E0 by (destruct bins; reflexivity).
    assert (last bins 0 = nth k bins 0) as E1. { rewrite (app_removelast_last 0 (l := bins)) at 2 by (intros E; pose proof bins_length as L; rewrite E in L; discriminate L). rewrite app_nth2; rewrite removelast_firstn_len, firstn_length, bins_length; [|lia]. replace (k - Nat.min (pred (S k)) (S k))%nat with 0%nat by lia. reflexivity. }
    rewrite E0, E1, !bins_nth by lia. pose proof (rmin_le X x Hx). pose proof (rmax_ge X x Hx). pose proof Kpos. unfold w. simpl INR at 1.
    replace (rmin X + INR k * ((rmax X - rmin X) / INR k)) with (rmax X) by (field; lra). lra.
  Qed.
  Lemma density_eq : density bins X = map (fun n => INR n / (w * INR (length X))) (histogram bins X).
  Proof using Hk Hs.
    unfold density. cbv zeta. rewrite counts_total, widths_all. pose proof counts_length as L. set (c := histogram bins X) in *. clearbody c. rewrite <- L at 1. clear L.
    assert (INR (length X) <> 0) as HX. { apply not_0_INR. pose proof X_ne. destruct X; [congruence|discriminate]. } pose proof w_pos.
    induction c as [|a c IH]; [reflexivity|]. cbn [length repeat combine map fst snd]. rewrite IH. f_equal. field. split; first [exact HX|lra].
  Qed.
  Lemma bars_nth h i : length h = k -> (i < k)%nat -> nth i (bars (centres bins) (np_diff bins) h) no_bar = mkBar (rmin X + (INR i + 1 / 2) * w) w (nth i h 0).
  Proof using Hk Hs.
    intros Hh Hi. assert (length (centres bins) = k) as LC by (rewrite centres_length, bins_length; lia).
    assert (length (np_diff bins) = k) as LD by (rewrite np_diff_length, bins_length; lia).
    unfold bars. rewrite (nth_map_in _ _ i ((0, 0), 0)) by (rewrite !combine_length; lia).
    rewrite nth_combine by (rewrite ?combine_length; lia). rewrite nth_combine by lia. cbn [fst snd]. rewrite centres_nth by (rewrite bins_length; lia).
    rewrite !bins_nth by lia. rewrite widths_all, nth_repeat_lt by lia. f_equal. rewrite S_INR. lra.
  Qed.
  Lemma bars_length h : length h = k -> length (bars (centres bins) (np_diff bins) h) = k.
  Proof using Hk Hs. intros Hh. unfold bars. rewrite map_length, !combine_length, centres_length, np_diff_length, bins_length, Hh. lia. Qed.
  Lemma bars_edges h i : length h = k -> (i < k)%nat -> left_edge (nth i (bars (centres bins) (np_diff bins) h) no_bar) = nth i bins 0 /\ right_edge (nth i (bars (centres bins) (np_diff bins) h) no_bar) = nth (S i) bins 0.
  Proof using Hk Hs. intros Hh Hi. unfold left_edge, right_edge. rewrite bars_nth by assumption. cbn [b_centre b_width]. rewrite !bins_nth by lia. rewrite S_INR. split; lra. Qed.
  Lemma bars_tile h : length h = k -> tiles (rmin X) (rmax X) (bars (centres bins) (np_diff bins) h).
  Proof using Hk Hs.
    intros Hh. pose proof (bars_length h Hh) as L. pose proof Kpos. split; [intros E; rewrite E in L; simpl in L; lia|]. rewrite L.
    split; [rewrite (proj1 (bars_edges h 0 Hh Hk)), bins_nth by lia; simpl; lra|].
    split. { rewrite (proj2 (bars_edges h (k - 1) Hh ltac:(lia))). replace (S (k - 1)) with k by lia. rewrite bins_nth by lia. unfold w. field. lra. }
    split. { intros i Hi. rewrite (proj2 (bars_edges h i Hh ltac:(lia))), (proj1 (bars_edges h (S i) Hh ltac:(lia))). reflexivity. }
    exists w. split; [apply w_pos|]. apply Forall_forall. intros b Hb. apply (In_nth _ _ no_bar) in Hb as (i & Hi & <-). rewrite L in Hi. now rewrite bars_nth.
  Qed.
  Lemma pdf_area c h i : (i < k)%nat -> h = map (fun x => x * (INR (length X) / c)) (density bins X) -> 0 < c ->
    let l := bars (centres bins) (np_diff bins) h in
    b_height (nth i l no_bar) * b_width (nth i l no_bar) = INR (count (in_bar l i) X) / c.
  Proof using Hk Hs.
    intros Hi -> Hc l. set (h := map _ _) in l. assert (length h = k) as Hh by (unfold h; rewrite density_eq, !map_length; apply counts_length).
    assert (count (in_bar l i) X = nth i (histogram bins X) 0%nat) as ->.
    { rewrite histogram_nth by (rewrite bins_length; lia). unfold count, in_bar. f_equal. apply filter_ext. intros x. unfold l. rewrite bars_length by exact Hh.
      destruct (bars_edges h i Hh Hi) as [-> ->]. rewrite bins_length. reflexivity. }
    unfold l. rewrite bars_nth by assumption. cbn [b_height b_width]. unfold h. rewrite (nth_map_in _ _ i 0) by (rewrite density_eq, map_length, counts_length; exact Hi).
    rewrite density_eq, (nth_map_in _ _ i 0%nat) by (rewrite counts_length; exact Hi). pose proof w_pos.
    assert (INR (length X) <> 0) as HX. { apply not_0_INR. pose proof X_ne. destruct X; [congruence|discriminate]. } field. repeat split; lra.
  Qed.
  Lemma density_sum : rsum (density bins X) = / w.
  Proof using Hk Hs. rewrite density_eq, rsum_scaled, counts_total. pose proof w_pos. assert (INR (length X) <> 0) as HX. { apply not_0_INR. pose proof X_ne. destruct X; [congruence|discriminate]. } field. split; first [exact HX|lra]. Qed.
  Lemma cdf_height m h i : (i < k)%nat -> h = map (fun c => c * m) (map (fun c => c / rsum (density bins X)) (cumsum 0 (density bins X))) ->
    let l := bars (centres bins) (np_diff bins) h in
    b_height (nth i l no_bar) = INR (count (up_to_bar l i) X) / INR (length X) * m.
  Proof using Hk Hs.
    intros Hi -> l. set (h := map _ _) in l. assert (length (cumsum 0 (density bins X)) = k) as LQ by (rewrite cumsum_length, density_eq, map_length; apply counts_length).
    assert (length h = k) as Hh by (unfold h; now rewrite !map_length).
    assert (count (up_to_bar l i) X = list_sum (firstn (S i) (histogram bins X))) as ->.
    { rewrite hist_prefix by (apply bins_increasing || (rewrite bins_length; lia)). unfold count, up_to_bar. f_equal. apply filter_ext_in. intros x Hx. unfold l. rewrite bars_length by exact Hh.
      destruct (bars_edges h i Hh Hi) as [_ ->]. rewrite bins_length.
      replace (Rleb (nth 0 bins 0) x) with true; [reflexivity|]. symmetry. apply Rleb_true. rewrite bins_nth by lia. pose proof (rmin_le X x Hx). simpl. lra. }
    unfold l. rewrite bars_nth by assumption. cbn [b_height]. unfold h. rewrite (nth_map_in _ _ i 0) by (rewrite map_length; lia). rewrite (nth_map_in _ _ i 0) by lia.
    rewrite cumsum_nth by (rewrite density_eq, map_length, counts_length; exact Hi). rewrite density_sum. rewrite density_eq, firstn_map, rsum_scaled.
    pose proof w_pos. assert (INR (length X) <> 0) as HX. { apply not_0_INR. pose proof X_ne. destruct X; [congruence|discriminate]. } field. split; first [exact HX|lra].
  Qed.
End Bars.
