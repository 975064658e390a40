(** Proofs about the plots of the mean cumulative function. *)
From Coquelicot Require Import Coquelicot.
From Coq Require Import List Arith Reals Bool Permutation Sorted Lra Lia.
From Verif Require Import Base Gauss NonparModel NonparProofs RList RepairModel RepairSpec RepairProofs RepairProofs2 RepairProofs3 CIModel MCFModel MCFProofs MPlotModel MPlotSpec.
Import ListNotations.
Open Scope R_scope.

(** * Step lines *)
(** The height above t. *)
Fixpoint height (prev : R) (p : list (R * R)) (t : R) : R :=
  match p with [] => prev | (s, y) :: r => if Rle_dec s t then height y r t else prev end.
Lemma last_cons_d {A} (l : list A) : forall a d, last (a :: l) d = last l a.
Proof. induction l as [|b l IH]; intros a d; [reflexivity|]. change (last (a :: b :: l) d) with (last (b :: l) d). rewrite IH. symmetry. apply IH. Qed.
Lemma flat_cons x l t y : flat_at l t y -> flat_at (x :: l) t y.
Proof. intros (pre & a & b & post & -> & H). exists (x :: pre), a, b, post. split; [reflexivity|exact H]. Qed.
Lemma walk_flat p : forall x0 prev lt t, StronglySorted Rle (map fst p) -> Forall (fun s => s <= lt) (map fst p) -> Forall (fun s => x0 <= s) (map fst p) ->
  x0 <= t <= lt -> flat_at ((x0, prev) :: walk prev p ++ [(lt, last (map snd p) prev)]) t (height prev p t).
Proof.
  induction p as [|[s y] p IH]; intros x0 prev lt t HS HL HX Ht; cbn [map fst snd walk height] in *.
  - exists [], (x0, prev), (lt, prev), []. split; [reflexivity|]. cbn. repeat split; lra.
  - apply StronglySorted_inv in HS as [HS HF]. apply Forall_cons_iff in HL as [L1 HL]. apply Forall_cons_iff in HX as [X1 HX].
    destruct (Rle_dec s t) as [Hs|Hs].
    + rewrite last_cons_d. apply flat_cons. change (flat_at ((s, prev) :: (s, y) :: walk y p ++ [(lt, last (map snd p) y)]) t (height y p t)). apply flat_cons. apply IH; [exact HS|exact HL|exact HF|lra].
    + exists [], (x0, prev), (s, prev), ((s, y) :: walk y p ++ [(lt, last (y :: map snd p) prev)]). split; [reflexivity|]. cbn. repeat split; lra.
Qed.
Lemma height_sum (f : R -> R) l : forall m t, StronglySorted Rle l ->
  height m (combine l (cumsum m (map f l))) t = m + rsum (map f (filter (fun s => if Rle_dec s t then true else false) l)).
Proof.
  induction l as [|s l IH]; intros m t HS; cbn [map cumsum combine height filter]; [simpl; ring|]. apply StronglySorted_inv in HS as [HS HF].
  destruct (Rle_dec s t) as [Hs|Hs].
  - rewrite IH by exact HS. cbn [map]. rewrite rsum_cons. ring.
  - assert (filter (fun s => if Rle_dec s t then true else false) l = []) as ->; [|simpl; ring].
    clear - HF Hs. induction HF as [|x l Hx _ IH]; [reflexivity|]. cbn [filter]. destruct (Rle_dec x t); [lra|exact IH].
Qed.
Lemma walk_climbs p : forall x0 prev lt, StronglySorted Rle (map fst p) -> Forall (fun s => s <= lt) (map fst p) -> Forall (fun s => x0 <= s) (map fst p) ->
  x0 <= lt -> StronglySorted Rle (prev :: map snd p) -> climbs ((x0, prev) :: walk prev p ++ [(lt, last (map snd p) prev)]).
Proof.
  induction p as [|[s y] p IH]; intros x0 prev lt HS HL HX Ht HY; cbn [map fst snd walk app] in *.
  - cbn. split; [left; lra|exact I].
  - apply StronglySorted_inv in HS as [HS HF]. apply Forall_cons_iff in HL as [L1 HL]. apply Forall_cons_iff in HX as [X1 HX].
    apply StronglySorted_inv in HY as [HY HFY]. apply Forall_cons_iff in HFY as [Y1 _].
    rewrite last_cons_d. cbn [climbs fst snd]. split; [left; lra|]. split; [right; lra|]. apply (IH s y lt HS HL HF L1 HY).
Qed.
Lemma walk_in p : forall x0 prev lt v, In v ((x0, prev) :: walk prev p ++ [(lt, last (map snd p) prev)]) ->
  (fst v = x0 \/ fst v = lt \/ In (fst v) (map fst p)) /\ (snd v = prev \/ In (snd v) (map snd p)).
Proof.
  induction p as [|[s y] p IH]; intros x0 prev lt v H; cbn [map fst snd walk app] in *.
  - destruct H as [<-|[<-|[]]]; cbn; auto.
  - rewrite last_cons_d in H. destruct H as [<-|[<-|H]]; cbn [fst snd]; [auto|cbn; auto|]. apply (IH s y lt v) in H as [[A|[A|A]] [B|B]]; cbn [In]; auto 7.
Qed.
Lemma stairs_walk times ys lt : length ys = length times -> stairs times ys lt = (0, 0) :: walk 0 (combine times ys) ++ [(lt, last (map snd (combine times ys)) 0)].
Proof. intros H. unfold stairs. rewrite map_snd_combine' by congruence. reflexivity. Qed.

(** * The nonparametric plot *)
Lemma last_time_latest data : Forall (fun s => s <> []) data -> data <> [] -> rmax (map rmax data) = latest data.
Proof.
  intros HF Hne. rewrite Forall_forall in HF. apply Rle_antisym; apply rmax_le.
  - destruct data; [congruence|discriminate].
  - intros x Hx. apply in_map_iff in Hx as (s & <- & Hs). exists (rmax s). split; [|lra]. apply in_concat. exists s. split; [exact Hs|]. apply rmax_in. now apply HF.
  - destruct data as [|s l]; [congruence|]. cbn [concat]. specialize (HF s (or_introl eq_refl)). destruct s; [congruence|discriminate].
  - intros x Hx. apply in_concat in Hx as (s & Hs & Hx). exists (rmax s). split; [now apply in_map|]. now apply rmax_ge.
Qed.
Lemma mcf_plot_inv data CI c : Forall (fun s => s <> []) data -> mcf_plot data CI = Ok c ->
  exists r data', mcf_nonparametric data CI = (Ok r, data') /\ m_line c = stairs (mcf_time r) (mcf_MCF r) (latest data) /\
    m_lower c = stairs (mcf_time r) (mcf_lower r) (latest data) /\ m_upper c = stairs (mcf_time r) (mcf_upper r) (latest data) /\
    m_xlim c = (0, latest data) /\ m_ylim c = (0, rmax (mcf_upper r) * (105 / 100)).
Proof.
  intros HF H. unfold mcf_plot in H. destruct (collect data) as [[reps ends] data0] eqn:EC. destruct (mcf_nonparametric data CI) as [rr dd] eqn:E. cbn [fst] in H.
  destruct rr as [r|]; cbn [bind] in H; [|discriminate]. exists r, dd. split; [reflexivity|].
  destruct (collect_spec _ _ _ _ HF EC) as (Ee & _). assert (data <> []) as Hne.
  { intros ->. destruct (mcf_structure [] CI HF r dd E) as (P & _ & _ & N & _). apply Permutation_sym, Permutation_nil in P. destruct (mcf_time r); [congruence|discriminate P]. }
  assert (rmax ends = latest data) as El. { rewrite <- last_time_latest by assumption. rewrite Ee. reflexivity. }
  rewrite El in H. injection H as <-. cbn [m_line m_lower m_upper m_xlim m_ylim]. repeat split.
Qed.
Lemma mcf_plot_ok data CI r data' : mcf_nonparametric data CI = (Ok r, data') -> exists c, mcf_plot data CI = Ok c.
Proof. intros E. unfold mcf_plot. destruct (collect data) as [[reps ends] data0]. rewrite E. cbn [fst bind]. eexists. reflexivity. Qed.

Lemma cumsum_sorted l : Forall (fun x => 0 <= x) l -> forall a, StronglySorted Rle (a :: cumsum a l).
Proof.
  induction 1 as [|x l Hx F IH]; intros a; cbn [cumsum]; [repeat constructor|].
  specialize (IH (a + x)). constructor; [exact IH|]. apply StronglySorted_inv in IH as [_ IH]. constructor; [lra|]. rewrite Forall_forall in *. intros y Hy. specialize (IH y Hy). lra.
Qed.
Section Plot.
  Variables (data : list (list R)) (CI : R) (r : mcf_result) (data' : list (list R)).
  Hypothesis HF : Forall (fun s => s <> []) data.
  Hypothesis HP : Forall (Forall (fun t => 0 <= t)) data.
  Hypothesis HR : mcf_nonparametric data CI = (Ok r, data').
  Lemma times_range t : In t (mcf_time r) -> 0 <= t <= latest data.
  Proof.
    intros Ht. destruct (mcf_structure data CI HF r data' HR) as (P & _). assert (In t (concat data)) as I by (apply (Permutation_in t P), in_or_app; now left).
    split; [|now apply rmax_ge]. apply in_concat in I as (s & Hs & I). rewrite Forall_forall in HP. specialize (HP s Hs). rewrite Forall_forall in HP. now apply HP.
  Qed.
  Lemma latest_nonneg : 0 <= latest data.
  Proof. destruct (mcf_structure data CI HF r data' HR) as (_ & _ & _ & N & _). destruct (mcf_time r) as [|t l] eqn:E; [congruence|]. pose proof (times_range t) as Q. rewrite E in Q. specialize (Q (or_introl eq_refl)). lra. Qed.
  Lemma MCF_length : length (mcf_MCF r) = length (mcf_time r) /\ length (mcf_lower r) = length (mcf_time r) /\ length (mcf_upper r) = length (mcf_time r).
  Proof.
    destruct (mcf_structure data CI HF r data' HR) as (_ & _ & _ & _ & _ & EM & EV & EL & EU).
    assert (length (mcf_MCF r) = length (mcf_time r)) as L1 by (rewrite EM, cumsum_length, map_length; reflexivity).
    assert (length (mcf_var r) = length (mcf_time r)) as L2 by (rewrite EV, cumsum_length, map_length; reflexivity).
    split; [exact L1|]. rewrite EL, EU, !map_length, combine_length. lia.
  Qed.
  Lemma line_heights repairs t : repairs_of data repairs -> 0 <= t <= latest data -> flat_at (stairs (mcf_time r) (mcf_MCF r) (latest data)) t (mean_repairs data repairs t).
  Proof.
    intros HQ Ht. destruct (mcf_structure data CI HF r data' HR) as (P & HS & _ & _ & _ & EM & _). destruct MCF_length as (L1 & _).
    rewrite stairs_walk by exact L1. assert (mean_repairs data repairs t = height 0 (combine (mcf_time r) (mcf_MCF r)) t) as ->.
    { rewrite EM, height_sum, Rplus_0_l by exact HS. unfold mean_repairs. apply rsum_perm. apply Permutation_map.
      assert (Permutation repairs (mcf_time r)) as PP. { unfold repairs_of in HQ. rewrite <- P in HQ. now apply Permutation_app_inv_r in HQ. }
      clear - PP. induction PP; cbn [filter]; repeat match goal with |- context [Rle_dec ?a ?b] => destruct (Rle_dec a b) end; auto; try apply perm_swap; try (now constructor). now transitivity (filter (fun s => if Rle_dec s t then true else false) l'). }
    apply walk_flat; rewrite ?map_fst_combine' by congruence; [exact HS| | |exact Ht]; apply Forall_forall; intros s Hs; apply times_range in Hs; lra.
  Qed.
  Lemma MCF_sorted : StronglySorted Rle (0 :: mcf_MCF r).
  Proof.
    destruct (mcf_structure data CI HF r data' HR) as (_ & _ & Pos & _ & _ & EM & _). 
    assert (Forall (fun x => 0 <= x) (map (fun t => 1 / INR (systems_observed data t)) (mcf_time r))) as F.
    { apply Forall_forall. intros x Hx. apply in_map_iff in Hx as (t & <- & Ht). specialize (Pos t Ht). apply lt_0_INR in Pos. apply Rlt_le, Rdiv_lt_0_compat; lra. }
    rewrite EM. now apply cumsum_sorted.
  Qed.
  Lemma line_climbs : climbs (stairs (mcf_time r) (mcf_MCF r) (latest data)).
  Proof.
    destruct (mcf_structure data CI HF r data' HR) as (_ & HS & _). destruct MCF_length as (L1 & _). rewrite stairs_walk by exact L1.
    apply walk_climbs; rewrite ?map_fst_combine', ?map_snd_combine' by congruence; [exact HS| | |apply latest_nonneg|apply MCF_sorted]; apply Forall_forall; intros s Hs; apply times_range in Hs; lra.
  Qed.
  Lemma walk_points p : forall prev v, In v p -> In v (walk prev p).
  Proof. induction p as [|[s y] p IH]; intros prev v H; [destruct H|]. cbn [walk]. destruct H as [<-|H]; [right; now left|]. right. right. now apply IH. Qed.
  Lemma walk_pair (P : R -> R -> Prop) times : forall ys zs a b, Forall2 P ys zs -> P a b -> Forall2 (fun v w => fst v = fst w /\ P (snd v) (snd w)) (walk a (combine times ys)) (walk b (combine times zs)).
  Proof.
    induction times as [|t times IH]; intros ys zs a b H Hab; [constructor|]. destruct H as [|y z ys zs Hyz H]; [constructor|]. cbn [combine walk].
    constructor; [auto|]. constructor; [auto|]. now apply IH.
  Qed.
  Lemma stairs_pair times ys zs lt : Forall2 Rle ys zs -> Forall2 (fun v w => fst v = fst w /\ snd v <= snd w) (stairs times ys lt) (stairs times zs lt).
  Proof.
    intros H. unfold stairs. constructor; [split; [reflexivity|apply Rle_refl]|]. apply Forall2_app.
    - apply (walk_pair Rle); [exact H|apply Rle_refl].
    - constructor; [|constructor]. split; [reflexivity|]. cbn [snd]. assert (forall d e, d <= e -> last ys d <= last zs e) as Q; [|apply Q, Rle_refl].
      clear - H. induction H as [|y z ys zs Hyz H IH]; intros d e Hde; [exact Hde|]. rewrite !last_cons_d. now apply IH.
  Qed.
  Lemma limits_order : 1 / 2 <= CI < 1 -> Forall2 Rle (mcf_lower r) (mcf_MCF r) /\ Forall2 Rle (mcf_MCF r) (mcf_upper r) /\ Forall (Rlt 0) (mcf_lower r).
  Proof.
    intros HC. destruct (mcf_C20 data CI HF r data' HR) as (_ & _ & Q). destruct (Q HC) as (L1 & L2 & O).
    assert (forall l m : list R, length l = length m -> (forall k, (k < length m)%nat -> nth k l 0 <= nth k m 0) -> Forall2 Rle l m) as A.
    { induction l as [|x l IH]; intros [|y m] L H; try discriminate L; constructor; [exact (H 0%nat ltac:(cbn; lia))|]. apply IH; [now injection L|]. intros k Hk. exact (H (S k) ltac:(cbn; lia)). }
    split; [apply A; [exact L1|intros k Hk; now apply O]|]. split; [apply A; [congruence|intros k Hk; apply O; congruence]|].
    apply Forall_forall. intros x Hx. apply (In_nth _ _ 0) in Hx as (k & Hk & <-). apply O. congruence.
  Qed.
  Lemma stairs_inside ys ylim v : length ys = length (mcf_time r) -> Forall (fun y => 0 <= y <= ylim) ys -> 0 <= ylim -> In v (stairs (mcf_time r) ys (latest data)) -> inside (0, latest data) (0, ylim) v.
  Proof.
    intros L F HY Hv. rewrite stairs_walk in Hv by exact L. apply walk_in in Hv as [A B]. rewrite map_fst_combine' in A by congruence. rewrite map_snd_combine' in B by congruence.
    pose proof latest_nonneg. unfold inside. cbn [fst snd]. split.
    - destruct A as [-> |[-> |A]]; [lra|lra|]. now apply times_range.
    - destruct B as [-> |B]; [lra|]. rewrite Forall_forall in F. now apply F.
  Qed.
  Lemma all_inside v : 1 / 2 <= CI < 1 -> In v (stairs (mcf_time r) (mcf_MCF r) (latest data)) \/ In v (stairs (mcf_time r) (mcf_lower r) (latest data)) \/ In v (stairs (mcf_time r) (mcf_upper r) (latest data)) ->
    inside (0, latest data) (0, rmax (mcf_upper r) * (105 / 100)) v.
  Proof.
    intros HC Hv. destruct (limits_order HC) as (O1 & O2 & P). destruct MCF_length as (L1 & L2 & L3).
    set (top := rmax (mcf_upper r)). assert (Forall (fun y => 0 <= y <= top) (mcf_upper r)) as FU.
    { apply Forall_forall. intros y Hy. split; [|now apply rmax_ge]. clear - O1 O2 P Hy.
      revert Hy P. generalize dependent (mcf_upper r). induction O1 as [|a b l m Hab O1 IH]; intros u O2 Hy P; inversion O2; subst; [destruct Hy|]. apply Forall_cons_iff in P as [P0 P]. destruct Hy as [<-|Hy]; [lra|]. eapply IH; eassumption. }
    assert (forall l m : list R, Forall2 Rle l m -> Forall (Rle 0) l -> Forall (fun y => 0 <= y <= top) m -> Forall (fun y => 0 <= y <= top) l) as A.
    { clear. induction 1 as [|a b l m Hab _ IH]; intros N M; [constructor|]. apply Forall_cons_iff in N as [N0 N]. apply Forall_cons_iff in M as [M0 M]. constructor; [lra|auto]. }
    assert (Forall (Rle 0) (mcf_lower r)) as PL by (revert P; apply Forall_impl; intros; lra).
    assert (Forall (Rle 0) (mcf_MCF r)) as PM by (pose proof MCF_sorted as S; apply StronglySorted_inv in S as [_ S]; exact S).
    assert (0 <= top) as TP. { destruct (mcf_upper r) as [|u l] eqn:E; [unfold top; simpl; lra|]. apply Forall_cons_iff in FU as [FU _]. lra. }
    assert (forall l, Forall (fun y => 0 <= y <= top) l -> Forall (fun y => 0 <= y <= top * (105 / 100)) l) as W by (intros l; apply Forall_impl; intros; lra).
    pose proof (A _ _ O2 PM FU) as FM. pose proof (A _ _ O1 PL FM) as FL.
    destruct Hv as [Hv|[Hv|Hv]]; eapply stairs_inside; try exact Hv; try assumption; try (apply W; assumption); lra.
  Qed.
End Plot.
