(** Lemmas for the properties of generate_X_array and distributions_input_checking. *)
From Coquelicot Require Import Coquelicot.
From Coq Require Import String.
From Coq Require Import List Arith Reals Lra Lia Bool Sorted.
From Verif Require Import Base RealFacts Ext Gauss DistModel DistSpec DistProofs DistProofs2 RepairModel CIModel SelModel QQProofs InputModel InputSpec.
Import ListNotations.
Open Scope R_scope.

(** A rising list from [a] to [b]. *)
Definition runs (a b : R) (l : list R) : Prop := StronglySorted Rle l /\ (exists r, l = a :: r) /\ last l 0 = b.

Lemma ss_app l m : StronglySorted Rle l -> StronglySorted Rle m -> (forall x y, In x l -> In y m -> x <= y) -> StronglySorted Rle (l ++ m).
Proof.
  induction 1 as [|x l S IH F]; intros Sm H; [exact Sm|]. cbn. constructor.
  - apply IH; [exact Sm|]. intros u v Hu Hv. apply H; [now right|exact Hv].
  - apply Forall_app. split; [exact F|]. apply Forall_forall. intros v Hv. apply H; [now left|exact Hv].
Qed.
Lemma ss_last l : StronglySorted Rle l -> forall x, In x l -> x <= last l 0.
Proof.
  induction 1 as [|y l S IH F]; intros x Hx; [destruct Hx|]. destruct l as [|z l]; [destruct Hx as [<-|[]]; cbn; lra|].
  change (last (y :: z :: l) 0) with (last (z :: l) 0). destruct Hx as [<-|Hx]; [|now apply IH].
  rewrite Forall_forall in F. assert (y <= z) by (apply F; now left).
  apply Rle_trans with z; [assumption|]. apply IH. now left.
Qed.
Lemma runs_range a b l x : runs a b l -> In x l -> a <= x <= b.
Proof.
  intros (S & (r & E) & L) Hx. split; [|rewrite <- L; now apply ss_last]. subst l. inversion S as [|y z S1 F]; subst. destruct Hx as [<-|Hx]; [lra|].
  rewrite Forall_forall in F. now apply F.
Qed.
Lemma runs_last_in a b l : runs a b l -> In b l.
Proof. intros (S & (r & E) & <-). assert (l <> []) as Hn by (rewrite E; discriminate). rewrite (app_removelast_last 0 Hn) at 2. apply in_or_app. right. now left. Qed.
Lemma last_app {A} (l m : list A) d : m <> [] -> last (l ++ m) d = last m d.
Proof.
  intros Hm. induction l as [|x l IH]; [reflexivity|]. cbn [app]. rewrite <- IH. destruct l; cbn [app]; [destruct m; [congruence|reflexivity]|reflexivity].
Qed.
Lemma runs_app a b c e l m : runs a b l -> runs c e m -> b <= c -> runs a e (l ++ m).
Proof.
  intros H1 H2 L. pose proof H1 as (S1 & (r1 & E1) & L1). pose proof H2 as (S2 & (r2 & E2) & L2). split; [|split].
  - apply ss_app; [exact S1|exact S2|]. intros x y Hx Hy. apply (runs_range _ _ _ _ H1) in Hx. apply (runs_range _ _ _ _ H2) in Hy. lra.
  - rewrite E1. cbn. eauto.
  - rewrite last_app; [exact L2|]. rewrite E2. discriminate.
Qed.
Lemma runs_cons x a b l : runs a b l -> x <= a -> runs x b (x :: l).
Proof. intros H L. apply (runs_app x x a b [x] l); [|exact H|exact L]. split; [repeat constructor|]. split; [now exists []|reflexivity]. Qed.
Lemma map_seq_runs (f : nat -> R) n : (forall i j, (i <= j)%nat -> f i <= f j) -> runs (f 0%nat) (f n) (map f (seq 0 (S n))).
Proof.
  intros M. split; [|split].
  - generalize 0%nat. generalize (S n). clear n. induction n as [|n IH]; intros k; cbn [seq map]; constructor; [apply IH|].
    apply Forall_forall. intros x Hx. apply in_map_iff in Hx. destruct Hx as (i & <- & Hi). apply in_seq in Hi. apply M. lia.
  - cbn. eauto.
  - rewrite seq_S, map_app. cbn [map]. rewrite last_last. reflexivity.
Qed.
Lemma linspace_runs a b n : a <= b -> runs a b (linspace a b (S (S n))).
Proof.
  intros L. unfold linspace. replace (S (S n) - 1)%nat with (S n) by lia. assert (0 < INR (S n)) as Hn by (apply lt_0_INR; lia).
  pose proof (map_seq_runs (fun i => a + INR i * ((b - a) / INR (S n))) (S n)) as H. cbn beta in H.
  replace (a + INR (S n) * ((b - a) / INR (S n))) with b in H by (field; lra). replace (a + INR 0 * ((b - a) / INR (S n))) with a in H by (simpl; lra).
  apply H. intros i j Hij. apply le_INR in Hij. assert (0 <= (b - a) / INR (S n)) by (apply Rdiv_le_0_compat; lra). nra.
Qed.
Lemma geomspace_runs a b n : 0 < a -> a <= b -> runs a b (geomspace a b (S (S n))).
Proof.
  intros Ha L. unfold geomspace. replace (S (S n) - 1)%nat with (S n) by lia. assert (0 < INR (S n)) as Hn by (apply lt_0_INR; lia).
  assert (1 <= b / a) as Hq by (apply Rmult_le_reg_r with a; [exact Ha|]; unfold Rdiv; rewrite Rmult_assoc, Rinv_l by lra; lra).
  pose proof (map_seq_runs (fun i => a * Rpower (b / a) (INR i / INR (S n))) (S n)) as H. cbn beta in H.
  replace (INR (S n) / INR (S n)) with 1 in H by (field; lra). rewrite Rpower_1 in H by lra.
  replace (INR 0 / INR (S n)) with 0 in H by (change (INR 0) with 0; field; lra). rewrite Rpower_O in H by lra.
  replace (a * (b / a)) with b in H by (field; lra). rewrite Rmult_1_r in H. apply H.
  intros i j Hij. apply le_INR in Hij. apply Rmult_le_compat_l; [lra|]. apply Rle_Rpower; [exact Hq|].
  apply Rmult_le_compat_r; [left; now apply Rinv_0_lt_compat|exact Hij].
Qed.
Lemma geomspace_from_runs g a b n : g < a -> a <= b -> runs a b (geomspace_from g a b (S (S n))).
Proof.
  intros Ha L. destruct (geomspace_runs (a - g) (b - g) n) as (S & (r & E) & La); [lra|lra|]. unfold geomspace_from. split; [|split].
  - clear E La. induction S as [|x l S IH F]; cbn; constructor; [exact IH|]. apply Forall_map. eapply Forall_impl; [|exact F]. cbn. intros; lra.
  - rewrite E. cbn. replace (a - g + g) with a by ring. eauto.
  - rewrite E in *. change (a - g + g :: map (fun x => x + g) r) with (map (fun x => x + g) (a - g :: r)).
    assert (forall l, l <> [] -> last (map (fun x => x + g) l) 0 = last l 0 + g) as ML.
    { clear. induction l as [|x l IH]; intros H; [congruence|]. destruct l as [|y l]; [reflexivity|]. cbn [map] in *. 
      change (last (x + g :: y + g :: map (fun x0 => x0 + g) l) 0) with (last (y + g :: map (fun x0 => x0 + g) l) 0).
      change (last (x :: y :: l) 0) with (last (y :: l) 0). apply IH. discriminate. }
    rewrite ML by discriminate. rewrite La. ring.
Qed.

(** ** The quantiles *)
Definition positive_family (d : dist) : Prop :=
  match d with Weibull _ _ _ | Lognormal _ _ _ | Exponential _ _ | Gamma _ _ _ | Loglogistic _ _ _ => True | _ => False end.
Lemma quantiles_order d : valid d -> positive_family d -> 0 <= dist_gamma d /\ dist_gamma d < ppf d (1 / 10000) /\ ppf d (1 / 10000) < ppf d (99 / 100).
Proof.
  intros V P. pose proof (all_facts d V) as F. destruct (F_ppf d F (1 / 10000)) as [I1 E1]; [lra|]. destruct (F_ppf d F (99 / 100)) as [I2 E2]; [lra|].
  split; [destruct d; cbn in *; lra|]. split.
  - destruct I1 as [I1 _]. destruct d; cbn in P; try contradiction; exact I1.
  - destruct (Rlt_le_dec (ppf d (1 / 10000)) (ppf d (99 / 100))) as [L|L]; [exact L|]. exfalso. pose proof (cdf_incr d V _ _ L). lra.
Qed.

Lemma lt_spec x y : lt x y = true <-> x < y.
Proof. unfold lt. destruct (Rlt_dec x y); split; intros; try assumption; try reflexivity; [discriminate|contradiction]. Qed.
Lemma le_spec x y : le x y = true <-> x <= y.
Proof. unfold le. destruct (Rle_dec x y); split; intros; try assumption; try reflexivity; [discriminate|contradiction]. Qed.
Lemma lt_false x y : lt x y = false <-> y <= x.
Proof. unfold lt. destruct (Rlt_dec x y); split; intros; try reflexivity; try discriminate; lra. Qed.
Lemma le_false x y : le x y = false <-> y < x.
Proof. unfold le. destruct (Rle_dec x y); split; intros; try reflexivity; try discriminate; lra. Qed.

Definition grid_safe (d : dist) (a b : R) : Prop :=
  let QL := ppf d (1 / 10000) in let QU := ppf d (99 / 100) in let g := dist_gamma d in
  ~ (a < QL /\ b = QL) /\ ~ (a = QU /\ QU < b) /\
  (g = 0 \/ a <= g - / 10 ^ 8 \/ QL < a \/ b < QL \/ (QL <= a /\ b <= QU)).

Ltac bools := repeat match goal with
  | H : (_ || _)%bool = true |- _ => apply orb_true_iff in H
  | H : (_ || _)%bool = false |- _ => apply orb_false_iff in H; destruct H
  | H : (_ && _)%bool = true |- _ => apply andb_true_iff in H; destruct H
  | H : (_ && _)%bool = false |- _ => apply andb_false_iff in H
  | H : lt _ _ = true |- _ => apply lt_spec in H
  | H : lt _ _ = false |- _ => apply lt_false in H
  | H : le _ _ = true |- _ => apply le_spec in H
  | H : le _ _ = false |- _ => apply le_false in H
  | H : _ \/ _ |- _ => destruct H
  end.

Lemma grid_positive_length d a b : length (grid_positive d a b) = 200%nat.
Proof.
  unfold grid_positive. assert (forall x y n, length (linspace x y n) = n) as L1 by (intros; unfold linspace; now rewrite map_length, seq_length).
  assert (forall x y n, length (geomspace x y n) = n) as L2 by (intros; unfold geomspace; now rewrite map_length, seq_length).
  assert (forall g x y n, length (geomspace_from g x y n) = n) as L3 by (intros; unfold geomspace_from; now rewrite map_length, L2).
  repeat match goal with |- context [if ?c then _ else _] => destruct c end; cbn [length app]; rewrite ?app_length, ?L1, ?L2, ?L3; reflexivity.
Qed.

Lemma tiny_pos : 0 < / 10 ^ 8.
Proof. apply Rinv_0_lt_compat. apply pow_lt. lra. Qed.

Lemma grid_positive_runs d a b : valid d -> positive_family d -> 0 <= a -> a <= b -> grid_safe d a b -> runs a b (grid_positive d a b).
Proof.
  intros V P H0 L (S1 & S2 & S3). destruct (quantiles_order d V P) as (G0 & G1 & G2). cbn zeta in *. pose proof tiny_pos as TP.
  unfold grid_positive. set (QL := ppf d (1 / 10000)) in *. set (QU := ppf d (99 / 100)) in *. set (g := dist_gamma d) in *. unfold just_below.
  destruct ((lt a QL && lt b QL) || (le QL a && le b QU) || (lt QU a && lt QU b))%bool eqn:B1; [now apply (linspace_runs a b 198)|].
  destruct (lt a QL && lt QL b && lt b QU)%bool eqn:B2.
  { clear B1. apply andb_true_iff in B2. destruct B2 as [B2 B2c]. apply andb_true_iff in B2. destruct B2 as [B2a B2b]. apply lt_spec in B2a, B2b, B2c.
    destruct (Req_EM_T g 0) as [E|E]; destruct (is_zero (pdf0 d)).
    - apply runs_cons with QL; [|lra]. apply (linspace_runs QL b 197). lra.
    - apply runs_cons with QL; [|lra]. apply (geomspace_runs QL b 197); lra.
    - assert (a <= g - / 10 ^ 8) as S4 by (destruct S3 as [S3|[S3|[S3|[S3|S3]]]]; [contradiction|exact S3|lra|lra|lra]).
      apply runs_cons with (g - / 10 ^ 8); [|lra]. apply runs_cons with QL; [|lra]. apply (linspace_runs QL b 196). lra.
    - assert (a <= g - / 10 ^ 8) as S4 by (destruct S3 as [S3|[S3|[S3|[S3|S3]]]]; [contradiction|exact S3|lra|lra|lra]).
      apply runs_cons with (g - / 10 ^ 8); [|lra]. apply runs_cons with QL; [|lra]. apply (geomspace_from_runs g QL b 196); lra. }
  destruct (lt QL a && lt a QU && lt QU b)%bool eqn:B3.
  { apply andb_true_iff in B3. destruct B3 as [B3 B3c]. apply andb_true_iff in B3. destruct B3 as [B3a B3b]. apply lt_spec in B3a, B3b, B3c.
    destruct (is_zero (pdf0 d)); apply (runs_app a QU QU b); try lra.
    - apply (linspace_runs a QU 173); lra.
    - apply (linspace_runs QU b 23); lra.
    - apply (geomspace_from_runs g a QU 173); lra.
    - apply (geomspace_from_runs g QU b 23); lra. }
  assert (a <= QL /\ QU <= b) as [Ha Hb].
  { clear S3. bools; split; lra. }
  assert (b = QU -> a < QL) as Hstrict.
  { intros Eb. destruct (Rlt_le_dec a QL) as [|N]; [assumption|]. exfalso. rewrite Eb in B1. clear S3 B2 B3. bools; lra. }
  assert (g = 0 \/ a <= g - / 10 ^ 8) as S4.
  { destruct S3 as [S3|[S3|[S3|[S3|S3]]]]; [now left|now right|lra|lra|]. exfalso. assert (b = QU) by lra. specialize (Hstrict H). lra. }
  destruct (Req_EM_T g 0) as [E|E]; destruct (is_zero (pdf0 d)).
  - apply runs_cons with QL; [|lra]. apply (runs_app QL QU QU b); [apply (linspace_runs QL QU 172); lra|apply (geomspace_runs QU b 23); lra|lra].
  - apply runs_cons with QL; [|lra]. apply (runs_app QL QU QU b); [apply (geomspace_runs QL QU 172); lra|apply (geomspace_runs QU b 23); lra|lra].
  - apply runs_cons with (g - / 10 ^ 8); [|lra]. apply runs_cons with QL; [|lra]. apply (runs_app QL QU QU b); [apply (linspace_runs QL QU 171); lra|apply (geomspace_from_runs g QU b 23); lra|lra].
  - apply runs_cons with (g - / 10 ^ 8); [|lra]. apply runs_cons with QL; [|lra]. apply (runs_app QL QU QU b); [apply (geomspace_from_runs g QL QU 171); lra|apply (geomspace_from_runs g QU b 23); lra|lra].
Qed.

(** Outside the safe cases a point leaves the interval. *)
Lemma grid_positive_leaves d a b : valid d -> positive_family d -> 0 <= a -> a <= b -> ~ grid_safe d a b ->
  exists x, In x (grid_positive d a b) /\ (x < a \/ b < x).
Proof.
  intros V P H0 L N. destruct (quantiles_order d V P) as (G0 & G1 & G2). unfold grid_safe in N. cbn zeta in N. pose proof tiny_pos as TP.
  unfold grid_positive. set (QL := ppf d (1 / 10000)) in *. set (QU := ppf d (99 / 100)) in *. set (g := dist_gamma d) in *. unfold just_below.
  assert ((a < QL /\ b = QL) \/ (a = QU /\ QU < b) \/ (g <> 0 /\ g - / 10 ^ 8 < a /\ a <= QL /\ QL <= b /\ (a < QL \/ QU < b) /\ b <> QL)) as C.
  { destruct (Rlt_dec a QL) as [A|A].
    - destruct (Req_EM_T b QL) as [B|B]; [now left; split|]. right. right.
      destruct (Req_EM_T g 0) as [E|E]; [exfalso; apply N; split; [tauto|]; split; [intros [? ?]; lra|now left]|].
      destruct (Rle_lt_dec a (g - / 10 ^ 8)) as [E2|E2]; [exfalso; apply N; split; [tauto|]; split; [intros [? ?]; lra|tauto]|].
      destruct (Rlt_dec b QL) as [E3|E3]; [exfalso; apply N; split; [tauto|]; split; [intros [? ?]; lra|tauto]|].
      split; [exact E|]. split; [exact E2|]. split; [lra|]. split; [lra|]. split; [now left|exact B].
    - destruct (Req_EM_T a QU) as [B|B].
      + destruct (Rlt_dec QU b) as [B2|B2]; [right; left; now split|]. exfalso. apply N. split; [tauto|]. split; [tauto|]. right. right. right. right. lra.
      + destruct (Rlt_dec QL a) as [B2|B2]; [exfalso; apply N; split; [tauto|]; split; [tauto|tauto]|].
        destruct (Rle_lt_dec b QU) as [B3|B3]; [exfalso; apply N; split; [tauto|]; split; [tauto|]; right; right; right; right; lra|].
        right. right. destruct (Req_EM_T g 0) as [E|E]; [exfalso; apply N; split; [tauto|]; split; [tauto|now left]|].
        destruct (Rle_lt_dec a (g - / 10 ^ 8)) as [E2|E2]; [exfalso; apply N; tauto|].
        split; [exact E|]. split; [exact E2|]. split; [lra|]. split; [lra|]. split; [now right|lra]. }
  assert (((lt a QL && lt b QL) || (le QL a && le b QU) || (lt QU a && lt QU b))%bool = false) as ->.
  { apply orb_false_iff. split; [apply orb_false_iff; split|]; apply andb_false_iff; rewrite ?lt_false, ?le_false; lra. }
  assert (lt QL a && lt a QU && lt QU b = false)%bool as ->.
  { apply andb_false_iff. rewrite andb_false_iff, !lt_false. lra. }
  assert (forall m n, In QU (linspace QL QU (S (S m)) ++ n) /\ In QL (linspace QL QU (S (S m)) ++ n)) as I1.
  { intros m n. pose proof (linspace_runs QL QU m ltac:(lra)) as Rn. pose proof (runs_last_in _ _ _ Rn) as RL. destruct Rn as (_ & (r & E) & _).
    split; apply in_or_app; left; [exact RL|rewrite E; now left]. }
  assert (forall m n, In QU (geomspace_from g QL QU (S (S m)) ++ n) /\ In QL (geomspace_from g QL QU (S (S m)) ++ n)) as I2.
  { intros m n. pose proof (geomspace_from_runs g QL QU m ltac:(lra) ltac:(lra)) as Rn. pose proof (runs_last_in _ _ _ Rn) as RL. destruct Rn as (_ & (r & E) & _).
    split; apply in_or_app; left; [exact RL|rewrite E; now left]. }
  assert (forall m n, In QU (geomspace QL QU (S (S m)) ++ n) /\ In QL (geomspace QL QU (S (S m)) ++ n)) as I3.
  { intros m n. pose proof (geomspace_runs QL QU m ltac:(lra) ltac:(lra)) as Rn. pose proof (runs_last_in _ _ _ Rn) as RL. destruct Rn as (_ & (r & E) & _).
    split; apply in_or_app; left; [exact RL|rewrite E; now left]. }
  destruct C as [C|[C|C]].
  - assert (lt a QL && lt QL b && lt b QU = false)%bool as -> by (apply andb_false_iff; rewrite andb_false_iff, !lt_false; lra).
    exists QU. split; [|lra]. destruct (Req_EM_T g 0), (is_zero (pdf0 d)).
    + right. apply (I1 172%nat).
    + right. apply (I3 172%nat).
    + right. right. apply (I1 171%nat).
    + right. right. apply (I2 171%nat).
  - assert (lt a QL && lt QL b && lt b QU = false)%bool as -> by (apply andb_false_iff; rewrite andb_false_iff, !lt_false; lra).
    exists QL. split; [|lra]. destruct (Req_EM_T g 0), (is_zero (pdf0 d)).
    + right. apply (I1 172%nat).
    + right. apply (I3 172%nat).
    + right. right. apply (I1 171%nat).
    + right. right. apply (I2 171%nat).
  - destruct C as (C1 & C2 & C3 & C4 & C5 & C6). exists (g - / 10 ^ 8). split; [|lra].
    destruct (Req_EM_T g 0) as [E|_]; [contradiction|]. destruct (lt a QL && lt QL b && lt b QU)%bool; destruct (is_zero (pdf0 d)); right; left; reflexivity.
Qed.

Lemma exchanged_spec a b : exists lo hi, exchanged a b = (lo, hi) /\ lo = Rmin a b /\ hi = Rmax a b /\ lo <= hi.
Proof.
  unfold exchanged. destruct (Rlt_dec b a) as [L|L]; do 2 eexists; (split; [reflexivity|]).
  - rewrite Rmin_right, Rmax_left by lra. repeat split; lra.
  - rewrite Rmin_left, Rmax_right by lra. repeat split; lra.
Qed.

(** ** The spacing *)

Lemma linspace_steps a b n : (2 <= n)%nat -> equal_steps (linspace a b n).
Proof.
  intros Hn. exists ((b - a) / INR (n - 1)). intros i Hi. unfold linspace in *. rewrite map_length, seq_length in Hi.
  set (f := fun i => a + INR i * ((b - a) / INR (n - 1))).
  assert (forall j, (j < n)%nat -> nth j (map f (seq 0 n)) 0 = f j) as E.
  { intros j Hj. rewrite (nth_indep _ 0 (f 0%nat)) by (now rewrite map_length, seq_length). rewrite map_nth, seq_nth by exact Hj. reflexivity. }
  rewrite !E by lia. unfold f. rewrite S_INR. ring.
Qed.
Lemma geomspace_from_ratios g a b n : (2 <= n)%nat -> equal_ratios g (geomspace_from g a b n).
Proof.
  intros Hn. exists (Rpower ((b - g) / (a - g)) (1 / INR (n - 1))). intros i Hi. unfold geomspace_from, geomspace in *. rewrite map_map in *. rewrite map_length, seq_length in Hi.
  set (f := fun i => (a - g) * Rpower ((b - g) / (a - g)) (INR i / INR (n - 1)) + g) in *.
  assert (forall j, (j < n)%nat -> nth j (map f (seq 0 n)) 0 = f j) as E.
  { intros j Hj. rewrite (nth_indep _ 0 (f 0%nat)) by (now rewrite map_length, seq_length). rewrite map_nth, seq_nth by exact Hj. reflexivity. }
  rewrite !E by lia. unfold f. rewrite S_INR. replace ((INR i + 1) / INR (n - 1)) with (INR i / INR (n - 1) + 1 / INR (n - 1)) by (unfold Rdiv; ring).
  rewrite Rpower_plus. ring.
Qed.
Lemma geomspace_from_0 a b n : geomspace a b n = geomspace_from 0 a b n.
Proof. unfold geomspace_from. rewrite !Rminus_0_r. symmetry. erewrite map_ext; [apply map_id|]. intros x. cbn. ring. Qed.
Lemma pdf0_location d : valid d -> positive_family d -> pdf0 d = pdf d (dist_gamma d).
Proof. intros V P. destruct d; cbn in P; try contradiction; cbn; rewrite ?Rminus_0_r; rewrite ?(Rminus_diag_eq gamma gamma) by reflexivity; reflexivity. Qed.
