(** Property C168, continued: the fitted function runs inside its band. *)
From Coquelicot Require Import Coquelicot.
From Coq Require Import String.
From Coq Require Import List Arith Reals Lra Lia Bool ZArith Sorted.
From Verif Require Import Base RealFacts Gauss Ext RList ConvertModel RepairModel DistModel DistSpec DistProofs DistProofs2 CIModel CISpec CIProofs CIProofs2 CIProps BandModel BandSpec BandProps BandProps2 FitBandModel FitBandSpec FitBandProofs FitBandProps.
Import ListNotations.
Open Scope R_scope.

(** A function that goes the right way stays on its side of a limit when reversals of this are corrected. *)
Lemma drawn_contains down l l' c : length c = length l -> goes down c -> drawn_limit down l l' ->
  ((forall i, (i < length l)%nat -> nth i l 0 <= nth i c 0) -> forall i, (i < length l)%nat -> nth i l' 0 <= nth i c 0) /\
  ((forall i, (i < length l)%nat -> nth i c 0 <= nth i l 0) -> forall i, (i < length l)%nat -> nth i c 0 <= nth i l' 0).
Proof.
  intros Lc Hc (L & _ & [->|(k & Hk & A & B & D)]); [auto|]. split; intros H i Hi.
  - destruct (Nat.lt_ge_cases i k) as [Q|Q]; [rewrite A by exact Q; now apply H|]. rewrite B by lia. specialize (Hc k i ltac:(lia)). pose proof (D (nth i l 0) (nth_In _ _ Hi)) as E. pose proof (H i Hi). pose proof (H k Hk). destruct down; lra.
  - destruct (Nat.lt_ge_cases i k) as [Q|Q]; [rewrite A by exact Q; now apply H|]. rewrite B by lia. specialize (Hc k i ltac:(lia)). pose proof (D (nth i l 0) (nth_In _ _ Hi)) as E. pose proof (H i Hi). pose proof (H k Hk). destruct down; lra.
Qed.
Lemma combine_index (a b : list R) x y : length a = length b -> In (x, y) (combine a b) -> exists i, (i < length a)%nat /\ nth i a 0 = x /\ nth i b 0 = y.
Proof.
  intros L H. apply (In_nth _ _ (0, 0)) in H as (i & Hi & E). rewrite combine_length, <- L, Nat.min_id in Hi. rewrite combine_nth in E by exact L. injection E as E1 E2. eauto.
Qed.
Lemma increasing_index l i j : increasing l -> (i < length l)%nat -> (j < length l)%nat -> nth i l 0 = nth j l 0 -> i = j.
Proof.
  intros H Hi Hj E. destruct (Nat.lt_trichotomy i j) as [Q|[Q|Q]]; [|exact Q|].
  - specialize (H i j ltac:(lia)). lra.
  - specialize (H j i ltac:(lia)). lra.
Qed.
Lemma increasing_rev l i j : increasing (rev l) -> (i < j < length l)%nat -> nth j l 0 < nth i l 0.
Proof.
  intros H Hij. specialize (H (length l - S j) (length l - S i))%nat. rewrite rev_length in H. specialize (H ltac:(lia)). rewrite !rev_nth in H by lia.
  replace (length l - S (length l - S j))%nat with j in H by lia. replace (length l - S (length l - S i))%nat with i in H by lia. exact H.
Qed.
Lemma decreasing_index l i j : increasing (rev l) -> (i < length l)%nat -> (j < length l)%nat -> nth i l 0 = nth j l 0 -> i = j.
Proof.
  intros H Hi Hj E. destruct (Nat.lt_trichotomy i j) as [Q|[Q|Q]]; [|exact Q|].
  - pose proof (increasing_rev l i j H ltac:(lia)). lra.
  - pose proof (increasing_rev l j i H ltac:(lia)). lra.
Qed.
Lemma not_exp d : two_parameters d -> ~ is_exponential d.
Proof. destruct d; cbn; tauto. Qed.
Lemma sf_antitone d x y : valid d -> x <= y -> sf d y <= sf d x.
Proof. intros V H. rewrite !(F_sf d (all_facts d V)). pose proof (cdf_incr d V x y H). lra. Qed.
Lemma sf_inside d x : valid d -> DistSpec.inside d x -> 0 < sf d x < 1.
Proof. intros V H. rewrite (F_sf d (all_facts d V)). pose proof (F_in d (all_facts d V) x H). lra. Qed.
Lemma isf_antitone d p q : valid d -> 0 < p -> p < q -> q < 1 -> isf d q < isf d p.
Proof. intros V Hp Hpq Hq. rewrite !(F_isf d (all_facts d V)) by lra. apply ppf_increasing; [exact V|lra|lra|lra]. Qed.

(** At every time drawn the fitted function is between the two lines, also where reversals are corrected, and the lines do not change sides. *)
Theorem C168_curve_reliability_partial paper gj d s CI f b : valid d -> two_parameters d -> match d with Gamma _ _ g => g = 0 -> / 10 ^ 4 < ppf d (1 - / 10 ^ 5) | _ => True end ->
  (paper = true -> f <> F_CHF) -> 0 < CI < 1 -> reliability_band paper gj d s (Z_of CI) f = Ok b ->
  (forall x l u, In (x, l) (b_line_lower b) -> In (x, u) (b_line_upper b) -> l <= curve d f x <= u) \/
  (forall x l u, In (x, l) (b_line_lower b) -> In (x, u) (b_line_upper b) -> u <= curve d f x <= l).
Proof.
  intros V T HG HP HC Hb. destruct (C168_reliability_partial paper gj d s CI f V T HG HP) as (b' & grid & xs & lo & up & lo' & up' & Eb & _ & _ & _ & _ & _ & IX & _ & L1 & L2 & EX & D1 & D2 & LN & _).
  rewrite Hb in Eb. injection Eb as <-.
  assert (forall i, (i < length xs)%nat -> DistSpec.inside d (nth i xs 0) /\ nth i lo 0 <= curve d f (nth i xs 0) <= nth i up 0) as BR.
  { intros i Hi. destruct (C67_reliability gj d (Some s) f CI [nth i xs 0] [nth i lo 0] [nth i up 0] 0 V (not_exp d T) HC (EX i Hi)) as (_ & _ & Q); [cbn; lia|exact Q]. }
  set (c := map (curve d f) xs). assert (length c = length xs) as Lc by apply map_length. assert (forall i, (i < length xs)%nat -> nth i c 0 = curve d f (nth i xs 0)) as Nc by (intros i Hi; now apply nth_map_any).
  set (down := match f with F_SF => true | _ => false end) in *.
  assert (goes down c) as Gc.
  { intros i j Hij. rewrite Lc in Hij. rewrite !Nc by lia. assert (nth i xs 0 <= nth j xs 0) as Q by (destruct (Nat.eq_dec i j) as [->|]; [lra|left; apply IX; lia]).
    pose proof (sf_antitone d _ _ V Q) as Q'. pose proof (sf_inside d _ V (proj1 (BR i ltac:(lia)))) as P1. pose proof (sf_inside d _ V (proj1 (BR j ltac:(lia)))) as P2. rewrite !curve_sf by exact V.
    unfold down. destruct f; [lra|lra|]. assert (ln (sf d (nth j xs 0)) <= ln (sf d (nth i xs 0))) by (apply ln_le; lra). lra. }
  assert (length lo' = length xs /\ length up' = length xs) as [L1' L2'] by (destruct D1 as [-> _]; destruct D2 as [-> _]; auto).
  assert (forall i, (i < length xs)%nat -> nth i lo' 0 <= curve d f (nth i xs 0) <= nth i up' 0) as Q.
  { intros i Hi. rewrite <- Nc by exact Hi. split.
    - apply (drawn_contains down lo lo' c); [lia|exact Gc|exact D1| |lia]. intros j Hj. rewrite Nc by lia. apply BR. lia.
    - apply (drawn_contains down up up' c); [lia|exact Gc|exact D2| |lia]. intros j Hj. rewrite Nc by lia. apply BR. lia. }
  destruct LN as [[-> ->]|[-> ->]]; [left|right]; intros x l u Hl Hu; apply combine_index in Hl as (i & Hi & E1 & E2); [|lia| |lia]; apply combine_index in Hu as (j & Hj & E3 & E4); try lia;
    assert (i = j) as <- by (apply (increasing_index xs); [exact IX|exact Hi|exact Hj|congruence]); subst; now apply Q.
Qed.
Print Assumptions C168_curve_reliability_partial.

(** At every height drawn the time of the fitted function is between the two lines. *)
Theorem C168_curve_time paper gj d s CI f last b : valid d -> two_parameters d -> (f = F_CHF -> / 10 ^ 8 < last * (3 / 2)) -> (paper = true -> f <> F_CHF) ->
  0 < CI < 1 -> 0 <= se_a s -> time_band paper gj d s (Z_of CI) f last = Ok b ->
  forall h l u t, In (l, h) (b_line_lower b) -> In (u, h) (b_line_upper b) -> DistSpec.inside d t -> curve d f t = h -> l <= t <= u.
Proof.
  intros V T HL HP HC HS Hb h l u t Hl Hu Ht Et. destruct (C168_time paper gj d s CI f last V T HL HP) as (b' & grid & hs & lo & up & lo' & up' & Eb & _ & _ & _ & _ & RG & OR & IN & L1 & L2 & EX & D1 & D2 & E1 & E2 & _).
  rewrite Hb in Eb. injection Eb as <-. rewrite E1 in Hl. rewrite E2 in Hu.
  assert (length lo' = length hs /\ length up' = length hs) as [L1' L2'] by (destruct D1 as [-> _]; destruct D2 as [-> _]; auto). pose proof tiny8 as T8.
  apply combine_index in Hl as (i & Hi & El & Eh); [|lia]. apply combine_index in Hu as (j & Hj & Eu & Eh'); [|lia].
  assert (i = j) as <-. { destruct f; [apply (decreasing_index hs)|apply (increasing_index hs)|apply (increasing_index hs)]; try exact OR; try lia; congruence. }
  assert (forall k, (k < length hs)%nat -> 0 < q_of f (nth k hs 0) < 1) as QR.
  { intros k Hk. pose proof (proj1 (proj1 (IN (nth k hs 0)) (nth_In hs 0 Hk))) as G. apply RG in G. destruct f; cbn [q_of]; [lra|lra|]. split; [apply exp_pos|]. rewrite <- exp_0. apply exp_increasing. lra. }
  set (c := map (fun h => isf d (q_of f h)) hs). assert (length c = length hs) as Lc by apply map_length. assert (forall i, (i < length hs)%nat -> nth i c 0 = isf d (q_of f (nth i hs 0))) as Nc by (intros k Hk; unfold c; now apply (nth_map_any (fun h => isf d (q_of f h)))).
  assert (forall k, (k < length hs)%nat -> nth k lo 0 <= nth k c 0 <= nth k up 0) as BR.
  { intros k Hk. rewrite Nc by exact Hk. specialize (QR k Hk). destruct (isf_inside d _ V QR) as [I1 I2].
    assert (curve d f (isf d (q_of f (nth k hs 0))) = nth 0 [nth k hs 0] 0) as CE. { rewrite curve_sf, I2 by exact V. destruct f; cbn [q_of nth]; [ring|reflexivity|]. rewrite ln_exp. ring. }
    destruct (C67_time gj d (Some s) f CI [nth k hs 0] [nth k lo 0] [nth k up 0] 0 _ V HS HC (EX k Hk) ltac:(cbn; lia) I1 CE) as (_ & _ & Q). exact Q. }
  set (down := match f with F_CHF => false | _ => true end) in *.
  assert (goes down c) as Gc.
  { intros k m Hkm. rewrite Lc in Hkm. rewrite !Nc by lia. destruct (Nat.eq_dec k m) as [->|N]; [destruct down; lra|]. pose proof (QR k ltac:(lia)) as Q1. pose proof (QR m ltac:(lia)) as Q2.
    unfold down. destruct f; left; apply isf_antitone; try exact V; try lra; cbn [q_of].
    - pose proof (increasing_rev hs k m OR ltac:(lia)). lra.
    - apply OR. lia.
    - apply exp_increasing. assert (nth k hs 0 < nth m hs 0) by (apply OR; lia). lra. }
  assert (nth i c 0 = t) as Ec. { rewrite Nc by lia. rewrite Eh. rewrite <- (sf_of_curve d f t h V Ht Et). now apply isf_sf. }
  rewrite <- El, <- Eu, <- Ec. split.
  - apply (drawn_contains down lo lo' c); [lia|exact Gc|exact D1| |lia]. intros k Hk. apply BR. lia.
  - apply (drawn_contains down up up' c); [lia|exact Gc|exact D2| |lia]. intros k Hk. apply BR. lia.
Qed.
Print Assumptions C168_curve_time.

(** The band of a Weibull distribution with unit standard errors, at a confidence level of 95 percent. *)
Example C168_curve_case gj : let d := Weibull 1 1 0 in let s := {| se_a := 1; se_b := 1; cov_ab := 0 |} in
  valid d /\ two_parameters d /\ 0 <= se_a s /\ (exists b, time_band true gj d s (Z_of (19 / 20)) F_CDF 0 = Ok b /\ exists l h, In (l, h) (b_line_lower b)).
Proof.
  cbv zeta. assert (valid (Weibull 1 1 0)) as V by (cbn; lra). set (s := {| se_a := 1; se_b := 1; cov_ab := 0 |}). assert (proper_cov s) as C by (unfold proper_cov; cbn [s se_a se_b cov_ab]; rewrite Rabs_R0; lra).
  split; [exact V|]. split; [exact I|]. split; [cbn; lra|].
  destruct (C168_time true gj (Weibull 1 1 0) s (19 / 20) F_CDF 0 V I) as (b & grid & hs & lo & up & lo' & up' & Eb & _ & _ & I1 & _ & RG & _ & IN & L1 & _ & _ & D1 & _ & E1 & _); [discriminate|discriminate|].
  exists b. split; [exact Eb|]. rewrite E1. assert (In (/ 10 ^ 8) hs) as H.
  { apply IN. split; [exact I1|]. destruct (C168_no_gap gj (Weibull 1 1 0) s F_CDF (19 / 20) (/ 10 ^ 8) V I C (RG _ I1)) as (t & u & E). eauto. }
  apply (In_nth _ _ 0) in H as (i & Hi & _). exists (nth i lo' 0), (nth i hs 0). destruct D1 as [L _]. rewrite <- combine_nth by lia. apply nth_In. rewrite combine_length. lia.
Qed.
