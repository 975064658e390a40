(** Proofs about crack growth and creep rupture. *)
From Coquelicot Require Import Coquelicot.
From Coq Require Import List Arith Reals Lra Lia Bool.
From Verif Require Import Base RealFacts RList Linear PoFModel PoFSpec PoFProofs.
Import ListNotations.
Open Scope R_scope.

Lemma Rpower_gt_0 x y : 0 < Rpower x y.
Proof. apply exp_pos. Qed.

Lemma paris_eq C m S f a : 0 < C -> 0 < S -> 0 < f -> 0 < a ->
  paris C m S f a = Rpower a (- 0.5 * m) / (C * Rpower S m * Rpower PI (0.5 * m) * Rpower f m).
Proof.
  intros HC HS Hf Ha. pose proof PI_RGT_0 as Hp. unfold paris.
  assert (Rpower (f * S * sqrt (PI * a)) m = Rpower f m * Rpower S m * Rpower PI (0.5 * m) * Rpower a (0.5 * m)) as ->.
  { assert (0 < PI * a) by now apply Rmult_lt_0_compat. assert (0 < sqrt (PI * a)) by now apply sqrt_lt_R0.
    rewrite <- (Rpower_mult_distr (f * S)) by (try apply Rmult_lt_0_compat; assumption).
    rewrite <- (Rpower_mult_distr f) by assumption. rewrite <- Rpower_sqrt by assumption. rewrite Rpower_mult.
    rewrite <- (Rpower_mult_distr PI) by assumption. replace (/ 2 * m) with (0.5 * m) by lra. ring. }
  replace (- 0.5 * m) with (- (0.5 * m)) by lra. rewrite Rpower_Ropp.
  pose proof (Rpower_gt_0 f m). pose proof (Rpower_gt_0 S m). pose proof (Rpower_gt_0 PI (0.5 * m)). pose proof (Rpower_gt_0 a (0.5 * m)).
  field. repeat split; lra.
Qed.

Lemma is_derive_Rpower_x p x : 0 < x -> is_derive (fun y => Rpower y p) x (p * Rpower x (p - 1)).
Proof.
  intros Hx. unfold Rpower. auto_derive; [exact Hx|].
  unfold Rminus. rewrite Rmult_plus_distr_r, exp_plus. replace (- (1) * ln x) with (- ln x) by ring.
  rewrite exp_Ropp, exp_ln by exact Hx. field. lra.
Qed.

Lemma paris_integral C m S f a b : 0 < C -> 0 < S -> 0 < f -> m <> 2 -> 0 < a -> 0 < b ->
  is_RInt (paris C m S f) a b
   ((Rpower b (- 0.5 * m + 1) - Rpower a (- 0.5 * m + 1)) / ((- 0.5 * m + 1) * C * Rpower S m * Rpower PI (0.5 * m) * Rpower f m)).
Proof.
  intros HC HS Hf Hm Ha Hb. set (e := - 0.5 * m + 1). set (D := C * Rpower S m * Rpower PI (0.5 * m) * Rpower f m).
  assert (0 < D) as HD by (unfold D; pose proof (Rpower_gt_0 f m); pose proof (Rpower_gt_0 S m);
    pose proof (Rpower_gt_0 PI (0.5 * m)); repeat apply Rmult_lt_0_compat; assumption).
  assert (e <> 0) as He by (unfold e; lra).
  assert (forall x, Rmin a b <= x -> 0 < x) as Hpos by (intros x Hx; revert Hx; unfold Rmin; destruct (Rle_dec a b); lra).
  apply (is_RInt_ext (fun x => / (e * D) * (e * Rpower x (e - 1)))).
  { intros x [Hx _]. rewrite paris_eq by (auto; apply Hpos; lra). fold D.
    replace (e - 1) with (- 0.5 * m) by (unfold e; lra). as_R. field. lra. }
  replace ((Rpower b e - Rpower a e) / (e * C * Rpower S m * Rpower PI (0.5 * m) * Rpower f m))
    with (scal (/ (e * D)) (minus (Rpower b e) (Rpower a e))).
  2:{ unfold scal, minus, plus, opp; simpl. unfold mult; simpl. unfold D. as_R. field. unfold D in HD.
      pose proof (Rpower_gt_0 f m). pose proof (Rpower_gt_0 S m). pose proof (Rpower_gt_0 PI (0.5 * m)). repeat split; lra. }
  apply (is_RInt_scal (V := R_NormedModule)). apply (is_RInt_derive (fun x => Rpower x e)).
  - intros x [Hx _]. apply is_derive_Rpower_x. now apply Hpos.
  - intros x [Hx _]. apply (ex_derive_continuous (fun x => e * Rpower x (e - 1))). unfold Rpower. auto_derive. now apply Hpos.
Qed.

Lemma f_g_fixed_pos ct : 0 < f_g_fixed ct.
Proof. destruct ct; simpl; lra. Qed.

(** The crack sizes that the simplified method works with. *)
Definition notch (D : option R) : R := match D with None => 0 | Some d => d end.
Definition cg_stress (P W t d : R) : R := P / (t * (W - 2 * d)) * 10 ^ 6.
Definition cg_trans (Kt d : R) (ct : crack) : R := d / ((1.12 * Kt / f_g_fixed ct) ^ 2 - 1).

Lemma crack_growth_spec Kc C m P W t Kt a0 D afin ct :
  let d := notch D in let S := cg_stress P W t d in let f := f_g_fixed ct in
  0 < Kc -> 0 < C -> 0 < P -> 0 < t -> 0 <= d -> 0 < W - 2 * d -> m <> 2 -> 0 < a0 ->
  1 < (1.12 * Kt / f) ^ 2 -> (forall x, afin = Some x -> 0 < x) ->
  exists o acrit, crack_growth_simplified Kc C m P W t Kt a0 D afin ct = Ok o /\
    f * S * sqrt (PI * acrit) = Kc /\ 0 < acrit /\
    cg_final o = match afin with None => acrit * 1000 | Some x => Rmin x (acrit * 1000) end /\
    cg_transition o = cg_trans Kt d ct /\
    cg_Nf_tot o = cg_Nf_1 o + cg_Nf_2 o /\
    (a0 < cg_transition o ->
       is_RInt (paris C m S f) (a0 / 1000) (cg_transition o / 1000) (cg_Nf_1 o) /\
       is_RInt (paris C m S f) ((cg_transition o + d) / 1000) ((cg_final o + d) / 1000) (cg_Nf_2 o)) /\
    (cg_transition o <= a0 ->
       cg_Nf_1 o = 0 /\ is_RInt (paris C m S f) (a0 / 1000) ((cg_final o + d) / 1000) (cg_Nf_2 o)).
Proof.
  intros d S f HKc HC HP Ht Hd HW Hm Ha0 HKt Hafin. unfold crack_growth_simplified.
  destruct (Req_EM_T m 2); [contradiction|]. fold (notch D). fold d.
  destruct (Rlt_dec (W - 2 * d) 0); [lra|].
  assert (0 < t * (W - 2 * d)) by now apply Rmult_lt_0_compat.
  rewrite pdiv_ok by lra. cbn [bind]. fold (cg_stress P W t d). fold S. fold f.
  assert (0 < S) as HS by (unfold S, cg_stress; apply Rmult_lt_0_compat; [now apply Rdiv_lt_0_compat|lra]).
  pose proof (f_g_fixed_pos ct) as Hf. fold f in Hf.
  assert (0 < S * f) by now apply Rmult_lt_0_compat. rewrite pdiv_ok by lra. cbn [bind]. pose proof PI_RGT_0 as Hpi.
  set (ac := 1 / PI * (Kc / (S * f)) ^ 2).
  assert (0 < Kc / (S * f)) as Hk by now apply Rdiv_lt_0_compat.
  assert (0 < ac) as Hac by (unfold ac; apply Rmult_lt_0_compat; [apply Rdiv_lt_0_compat; lra|apply pow_lt; lra]).
  rewrite (pdiv_ok d) by lra. cbn [bind]. fold (cg_trans Kt d ct).
  assert (0 <= cg_trans Kt d ct) as Htr.
  { unfold cg_trans. apply Rmult_le_pos; [exact Hd|]. left. apply Rinv_0_lt_compat. fold f. lra. }
  set (tr := d / ((1.12 * Kt / f) ^ 2 - 1)) in *. change (cg_trans Kt d ct) with tr in *.
  set (e := - 0.5 * m + 1).
  set (den := e * C * Rpower S m * Rpower PI (0.5 * m) * Rpower f m).
  assert (den <> 0) as Hden.
  { unfold den, e. pose proof (Rpower_gt_0 f m). pose proof (Rpower_gt_0 S m). pose proof (Rpower_gt_0 PI (0.5 * m)).
    repeat apply Rmult_integral_contrapositive_currified; lra. }
  set (af := match afin with Some af => if Rlt_dec af ((ac + d / 1000) * 1000 - d) then (af + d) / 1000 else ac + d / 1000
             | None => ac + d / 1000 end).
  assert (af * 1000 - d = match afin with None => ac * 1000 | Some x => Rmin x (ac * 1000) end) as Haf.
  { unfold af. destruct afin as [x|]; [|lra]. destruct (Rlt_dec x ((ac + d / 1000) * 1000 - d)).
    - rewrite Rmin_left by lra. lra.
    - rewrite Rmin_right by lra. lra. }
  assert (0 < af) as Hafp.
  { unfold af. destruct afin as [x|]; [|lra]. pose proof (Hafin x eq_refl). destruct (Rlt_dec x ((ac + d / 1000) * 1000 - d)); lra. }
  assert (f * S * sqrt (PI * ac) = Kc) as Hcrit.
  { unfold ac. replace (PI * (1 / PI * (Kc / (S * f)) ^ 2)) with ((Kc / (S * f)) ^ 2) by (field; lra).
    rewrite sqrt_pow2 by lra. field. lra. }
  destruct (Rlt_dec (a0 / 1000) (tr / 1000)) as [Hlt|Hge].
  - rewrite (pdiv_ok _ den) by exact Hden. cbn [bind fst snd]. rewrite (pdiv_ok _ den) by exact Hden. cbn [bind].
    eexists. exists ac. split; [reflexivity|]. cbn [cg_final cg_transition cg_Nf_tot cg_Nf_1 cg_Nf_2].
    split; [exact Hcrit|]. split; [exact Hac|]. split; [exact Haf|]. split; [field|]. split; [reflexivity|]. split.
    + intros _. split.
      * replace (tr / 1000 * 1000 / 1000) with (tr / 1000) by field. apply paris_integral; lra.
      * replace ((tr / 1000 * 1000 + d) / 1000) with (tr / 1000 + d / 1000) by field.
        replace ((af * 1000 - d + d) / 1000) with af by field. apply paris_integral; lra.
    + intros. lra.
  - cbn [bind fst snd]. rewrite (pdiv_ok _ den) by exact Hden. cbn [bind].
    eexists. exists ac. split; [reflexivity|]. cbn [cg_final cg_transition cg_Nf_tot cg_Nf_1 cg_Nf_2].
    split; [exact Hcrit|]. split; [exact Hac|]. split; [exact Haf|]. split; [field|]. split; [reflexivity|]. split.
    + intros. lra.
    + intros _. split; [reflexivity|]. replace ((af * 1000 - d + d) / 1000) with af by field. apply paris_integral; lra.
Qed.

(** ** C43 *)
Lemma crack_growth_default_fails Kc C m P W t : 0 < Kc -> 0 < P -> 0 < W -> 0 < t -> m <> 2 ->
  crack_growth_defaults Kc C m P W t = Err ZeroDivisionError.
Proof.
  intros HKc HP HW Ht Hm. unfold crack_growth_defaults, crack_growth_simplified. destruct (Req_EM_T m 2); [contradiction|].
  destruct (Rlt_dec (W - 2 * 0) 0); [lra|]. rewrite pdiv_ok. 2:{ apply Rmult_integral_contrapositive; lra. }
  cbn [bind f_g_fixed]. rewrite pdiv_ok.
  2:{ assert (0 < P / (t * (W - 2 * 0)) * 10 ^ 6 * 1.12); [|lra].
      apply Rmult_lt_0_compat; [|lra]. apply Rmult_lt_0_compat; [|lra]. apply Rdiv_lt_0_compat; [lra|].
      apply Rmult_lt_0_compat; lra. }
  cbn [bind]. unfold pdiv at 1. destruct (Req_EM_T ((1.12 * 1 / 1.12) ^ 2 - 1) 0) as [_|H]; [reflexivity|].
  exfalso. apply H. field. lra.
Qed.

(** ** Growing to where the crack already is *)
Lemma crack_no_growth Kc C m P W t Kt a0 ct : 
  0 < Kc -> 0 < C -> 0 < P -> 0 < t -> 0 < W -> m <> 2 -> 0 < a0 -> 1 < (1.12 * Kt / f_g_fixed ct) ^ 2 ->
  (forall o, crack_growth_simplified Kc C m P W t Kt a0 None None ct = Ok o -> a0 < cg_final o) ->
  exists o, crack_growth_simplified Kc C m P W t Kt a0 None (Some a0) ct = Ok o /\ cg_final o = a0 /\ cg_Nf_tot o = 0.
Proof.
  intros HKc HC HP Ht HW Hm Ha0 HKt Hcrit.
  destruct (crack_growth_spec Kc C m P W t Kt a0 None None ct) as (o1 & ac & E1 & K1 & Hac & F1 & _); cbn [notch]; try lra; [discriminate|].
  destruct (crack_growth_spec Kc C m P W t Kt a0 None (Some a0) ct) as (o & ac' & E & K & Hac' & F & T & Tot & _ & S2); cbn [notch]; try lra;
    [intros x [= <-]; exact Ha0|].
  specialize (Hcrit o1 E1). rewrite F1 in Hcrit.
  assert (ac' = ac) as ->.
  { rewrite <- K in K1. cbn [notch] in K1.
    assert (0 < f_g_fixed ct * cg_stress P W t 0) as Hp.
    { apply Rmult_lt_0_compat; [apply f_g_fixed_pos|]. unfold cg_stress. apply Rmult_lt_0_compat; [apply Rdiv_lt_0_compat; [lra|apply Rmult_lt_0_compat; lra]|lra]. }
    apply Rmult_eq_reg_l in K1; [|lra]. pose proof PI_RGT_0.
    apply sqrt_inj in K1; [|apply Rmult_le_pos; lra|apply Rmult_le_pos; lra]. apply Rmult_eq_reg_l in K1; lra. }
  exists o. split; [exact E|]. rewrite Rmin_left in F by lra. split; [exact F|].
  rewrite T in S2. unfold cg_trans in S2. cbn [notch] in S2. destruct S2 as [N1 N2]; [unfold Rdiv; rewrite Rmult_0_l; lra|].
  rewrite Tot, N1. rewrite F in N2. replace ((a0 + 0) / 1000) with (a0 / 1000) in N2 by lra.
  assert (cg_Nf_2 o = 0) as ->; [|lra].
  pose proof (is_RInt_point (V := R_NormedModule) (paris C m (cg_stress P W t 0) (f_g_fixed ct)) (a0 / 1000)) as Z.
  apply (is_RInt_unique (V := R_CompleteNormedModule)) in N2. apply (is_RInt_unique (V := R_CompleteNormedModule)) in Z. rewrite N2 in Z. exact Z.
Qed.

(** With a notch and a crack already beyond the transition length, the reported number of
    cycles to grow from a0 to a0 is positive. *)
Lemma crack_no_growth_notch Kc C m P W t Kt a0 d ct :
  0 < Kc -> 0 < C -> 0 < P -> 0 < t -> 0 < d -> 0 < W - 2 * d -> m <> 2 -> 0 < a0 -> 1 < (1.12 * Kt / f_g_fixed ct) ^ 2 ->
  cg_trans Kt d ct <= a0 ->
  (forall o, crack_growth_simplified Kc C m P W t Kt a0 (Some d) None ct = Ok o -> a0 < cg_final o) ->
  exists o, crack_growth_simplified Kc C m P W t Kt a0 (Some d) (Some a0) ct = Ok o /\ cg_final o = a0 /\ 0 < cg_Nf_tot o.
Proof.
  intros HKc HC HP Ht Hd HW Hm Ha0 HKt Htr Hcrit.
  destruct (crack_growth_spec Kc C m P W t Kt a0 (Some d) None ct) as (o1 & ac & E1 & K1 & Hac & F1 & _); cbn [notch]; try lra; [discriminate|].
  destruct (crack_growth_spec Kc C m P W t Kt a0 (Some d) (Some a0) ct) as (o & ac' & E & K & Hac' & F & T & Tot & _ & S2); cbn [notch]; try lra;
    [intros x [= <-]; exact Ha0|].
  specialize (Hcrit o1 E1). rewrite F1 in Hcrit. cbn [notch] in *.
  assert (0 < cg_stress P W t d) as HS.
  { unfold cg_stress. apply Rmult_lt_0_compat; [apply Rdiv_lt_0_compat; [lra|apply Rmult_lt_0_compat; lra]|lra]. }
  pose proof (f_g_fixed_pos ct) as Hf.
  assert (ac' = ac) as ->.
  { rewrite <- K in K1.
    assert (0 < f_g_fixed ct * cg_stress P W t d) as Hp by now apply Rmult_lt_0_compat.
    apply Rmult_eq_reg_l in K1; [|lra]. pose proof PI_RGT_0.
    apply sqrt_inj in K1; [|apply Rmult_le_pos; lra|apply Rmult_le_pos; lra]. apply Rmult_eq_reg_l in K1; lra. }
  exists o. split; [exact E|]. rewrite Rmin_left in F by lra. split; [exact F|].
  destruct S2 as [N1 N2]; [rewrite T; exact Htr|]. rewrite Tot, N1. rewrite F in N2.
  assert (0 < cg_Nf_2 o); [|lra].
  rewrite <- (is_RInt_unique (V := R_CompleteNormedModule) _ _ _ _ N2).
  apply RInt_gt_0; [lra| |].
  - intros x Hx. rewrite paris_eq by lra. pose proof (Rpower_gt_0 x (- 0.5 * m)). pose proof (Rpower_gt_0 (f_g_fixed ct) m).
    pose proof (Rpower_gt_0 (cg_stress P W t d) m). pose proof (Rpower_gt_0 PI (0.5 * m)).
    apply Rdiv_lt_0_compat; [assumption|]. repeat apply Rmult_lt_0_compat; assumption.
  - intros x Hx. apply (continuous_ext_loc _ (fun x => Rpower x (- 0.5 * m) / (C * Rpower (cg_stress P W t d) m * Rpower PI (0.5 * m) * Rpower (f_g_fixed ct) m))).
    + exists (mkposreal (x / 2) ltac:(lra)). intros y Hy. symmetry. apply paris_eq; try lra.
      unfold ball in Hy; simpl in Hy. unfold AbsRing_ball, abs, minus, plus, opp in Hy; simpl in Hy. apply Rabs_def2 in Hy. lra.
    + apply (ex_derive_continuous (fun x => Rpower x (- 0.5 * m) / (C * Rpower (cg_stress P W t d) m * Rpower PI (0.5 * m) * Rpower (f_g_fixed ct) m))).
      set (z := C * Rpower (cg_stress P W t d) m * Rpower PI (0.5 * m) * Rpower (f_g_fixed ct) m). clearbody z.
      unfold Rpower. auto_derive. lra.
Qed.

(** ** The iterative method *)

Lemma edge_fg_ge_1 W a : 0 < W -> 0 <= a -> exists f, f_g_at Edge W a = Some f /\ 1 <= f.
Proof.
  intros HW Ha. eexists. split; [reflexivity|]. set (x := a / W).
  assert (0 <= x) by (unfold x; apply Rmult_le_pos; [lra|left; now apply Rinv_0_lt_compat]). nra.
Qed.
Lemma center_fg_ge_1 W a : 0 < W -> 0 <= a -> a < W / 2 -> exists f, f_g_at Center W a = Some f /\ 1 <= f.
Proof.
  intros HW Ha Hlt. unfold f_g_at. pose proof PI_RGT_0.
  assert (0 <= PI * a / W) by (apply Rmult_le_pos; [nra|left; now apply Rinv_0_lt_compat]).
  assert (PI * a / W < PI / 2).
  { apply (Rmult_lt_reg_r W); [exact HW|]. replace (PI * a / W * W) with (PI * a) by (field; lra). nra. }
  assert (0 < cos (PI * a / W)) as Hc by (apply cos_gt_0; lra).
  destruct (Rlt_dec 0 (cos (PI * a / W))); [|contradiction]. eexists. split; [reflexivity|].
  rewrite <- sqrt_1 at 1. apply sqrt_le_1_alt. pose proof (COS_bound (PI * a / W)).
  set (u := cos (PI * a / W)) in *. apply (Rmult_le_reg_r u); [exact Hc|]. replace (1 / u * u) with 1 by (field; lra). lra.
Qed.

(** The region in which the crack leaves some net section (and, for a centre crack, in
    which the secant formula has a value). *)
Definition in_plate (ct : crack) (W d a : R) : Prop :=
  a < W - 2 * d /\ match ct with Edge => True | Center => a < W / 2 end.

Section Growth.
  Variables Kc C m P W t d : R.
  Variable ct : crack.
  Variable lt2 : option R.
  Variables a0 af : R.
  Hypotheses (HC : 0 < C) (Hm : 0 <= m) (HP : 0 < P) (HW : 0 < W) (Ht : 0 < t) (Hd : 0 <= d) (Ha0 : 0 < a0).
  Hypothesis (Hin : in_plate ct W d af).

  Definition K0 : R := P / (t * W) * 10 ^ 6 * sqrt (PI * a0 / 1000).
  Definition da0 : R := C * Rpower K0 m * 1000.

  Lemma K0_pos : 0 < K0.
  Proof.
    unfold K0. pose proof PI_RGT_0. apply Rmult_lt_0_compat.
    - apply Rmult_lt_0_compat; [|lra]. apply Rdiv_lt_0_compat; [lra|now apply Rmult_lt_0_compat].
    - apply sqrt_lt_R0. apply Rdiv_lt_0_compat; [now apply Rmult_lt_0_compat|lra].
  Qed.
  Lemma da0_pos : 0 < da0.
  Proof. unfold da0. apply Rmult_lt_0_compat; [|lra]. apply Rmult_lt_0_compat; [exact HC|apply Rpower_gt_0]. Qed.

  Lemma it_step_grows s a : it_a s = Some a -> it_eff s = Some (a + d) -> a0 <= a <= af ->
    exists s' a', it_step Kc C m P W t d lt2 ct s = Ok s' /\ it_a s' = Some a' /\ it_eff s' = Some (a' + d) /\ a + da0 <= a'.
  Proof.
    intros Ea Ee [Hge Hle]. unfold it_step. rewrite Ea, Ee. destruct Hin as [Hin1 Hin2].
    assert (0 < t * (W - 2 * d - a)) as Harea by (apply Rmult_lt_0_compat; lra).
    rewrite pdiv_ok by lra. cbn [bind].
    assert (exists f, f_g_at ct W a = Some f /\ 1 <= f) as (f & -> & Hf).
    { destruct ct; [apply edge_fg_ge_1; lra|apply center_fg_ge_1; lra]. }
    set (S := P / (t * (W - 2 * d - a)) * 10 ^ 6).
    assert (P / (t * W) * 10 ^ 6 <= S) as HS.
    { unfold S. apply Rmult_le_compat_r; [lra|]. apply Rmult_le_compat_l; [lra|]. apply Rinv_le_contravar; [exact Harea|].
      apply Rmult_le_compat_l; lra. }
    assert (0 < P / (t * W) * 10 ^ 6) as HS0.
    { apply Rmult_lt_0_compat; [|lra]. apply Rdiv_lt_0_compat; [lra|now apply Rmult_lt_0_compat]. }
    set (dK := if nlt (Some a) lt2 then f * S * sqrt (PI * a / 1000) else f * S * sqrt (PI * (a + d) / 1000)).
    assert (K0 <= dK) as HdK.
    { pose proof PI_RGT_0. assert (forall x, a0 <= x -> K0 <= f * S * sqrt (PI * x / 1000)) as G.
      { intros x Hx. unfold K0. apply Rmult_le_compat; [lra|apply sqrt_pos| |].
        - assert (0 <= (f - 1) * S) by (apply Rmult_le_pos; lra). lra.
        - apply sqrt_le_1_alt. apply Rmult_le_compat_r; [lra|]. apply Rmult_le_compat_l; lra. }
      unfold dK. destruct (nlt (Some a) lt2); apply G; lra. }
    pose proof K0_pos as HK0. unfold rpow. destruct (Rlt_dec 0 dK) as [_|]; [|lra].
    eexists. eexists. split; [reflexivity|]. cbn [it_a it_eff]. split; [reflexivity|]. split; [f_equal; ring|].
    unfold da0. apply Rplus_le_compat_l. apply Rmult_le_compat_r; [lra|]. apply Rmult_le_compat_l; [lra|].
    apply Rle_Rpower_l; [exact Hm|split; [exact HK0|exact HdK]].
  Qed.

  Lemma it_loop_terminates : forall k s a, it_a s = Some a -> it_eff s = Some (a + d) -> a0 <= a -> a <= af ->
    af < a + INR k * da0 ->
    exists s', it_loop (it_step Kc C m P W t d lt2 ct) (it_finished d (Some af)) k s = Ok (Some s').
  Proof.
    induction k as [|k IH]; intros s a Ea Ee Hge Hle Hk.
    - simpl in Hk. lra.
    - cbn [it_loop]. destruct (it_step_grows s a Ea Ee (conj Hge Hle)) as (s' & a' & -> & Ea' & Ee' & Hg). cbn [bind].
      destruct (it_finished d (Some af) s') eqn:F; [eauto|]. pose proof da0_pos as Hda. rewrite S_INR in Hk.
      apply (IH s' a' Ea' Ee'); try lra.
      unfold it_finished in F. apply orb_false_iff in F. destruct F as [_ F]. rewrite Ee' in F. cbn in F.
      destruct (Rlt_dec (af + d) (a' + d)); [discriminate|lra].
  Qed.
End Growth.

Lemma nat_above' (x : R) : exists k : nat, x < INR k.
Proof. destruct (archimed (Rmax 0 x)) as [H _]. pose proof (Rmax_l 0 x). pose proof (Rmax_r 0 x).
  exists (Z.to_nat (up (Rmax 0 x))). rewrite INR_IZR_INZ, Z2Nat.id; [lra|]. apply le_IZR. lra. Qed.

Lemma iterative_terminates Kc C m P W t Kt a0 D af ct :
  let d := notch D in
  0 < C -> 0 <= m -> 0 < P -> 0 < W -> 0 < t -> 0 <= d -> 0 < a0 -> a0 <= af -> in_plate ct W d af ->
  (forall f, f_g_at ct W (a0 + d) = Some f -> (1.12 * Kt / f) ^ 2 - 1 <> 0) ->
  exists fuel o, crack_growth_iterative Kc C m P W t Kt a0 D (Some af) ct fuel = Ok (Some o).
Proof.
  intros d HC Hm HP HW Ht Hd Ha0 Haf Hin HKt. unfold crack_growth_iterative. fold (notch D). fold d.
  assert (exists lt2, (match f_g_at ct W (a0 + d) with
    | None => Ok None | Some f_g => rmap Some (pdiv d ((1.12 * Kt / f_g) ^ 2 - 1)) end) = Ok lt2) as (lt2 & ->).
  { destruct (f_g_at ct W (a0 + d)) as [f|]; [|eauto]. rewrite pdiv_ok by (now apply HKt). cbn. eauto. }
  cbn [bind]. pose proof (da0_pos C m P W t a0 HC) as Hda.
  destruct (nat_above' ((af - a0) / da0 C m P W t a0)) as (k & Hk). exists k.
  match goal with |- context [it_loop ?st ?fi k ?s0] =>
    destruct (it_loop_terminates Kc C m P W t d ct lt2 a0 af HC Hm HP HW Ht Hd Ha0 Hin k s0 a0 eq_refl eq_refl ltac:(lra) Haf) as (s' & ->) end.
  - apply (Rmult_lt_compat_r (da0 C m P W t a0)) in Hk; [|exact Hda]. unfold Rdiv in Hk. rewrite Rmult_assoc, Rinv_l in Hk by lra. lra.
  - cbn [bind]. eauto.
Qed.

(** More passes do not change a finished run. *)
Lemma it_loop_more step fin k j s s' : it_loop step fin k s = Ok (Some s') -> it_loop step fin (k + j) s = Ok (Some s').
Proof.
  revert s. induction k as [|k IH]; intros s H; [discriminate|]. cbn [it_loop Nat.add] in *.
  destruct (step s) as [s1|e]; cbn [bind] in *; [|discriminate]. destruct (fin s1); [exact H|now apply IH].
Qed.

(** A finished run without a_final stopped because the crack passed the critical length. *)
Lemma it_loop_end step fin k s s' : it_loop step fin k s = Ok (Some s') -> fin s' = true.
Proof.
  revert s. induction k as [|k IH]; intros s H; [discriminate|]. cbn [it_loop] in H.
  destruct (step s) as [s1|e]; cbn [bind] in H; [|discriminate]. destruct (fin s1) eqn:F; [injection H as <-; exact F|eauto].
Qed.
Lemma it_loop_inv (Q : it_state -> Prop) step fin : (forall s s', Q s -> step s = Ok s' -> Q s') ->
  forall k s s', Q s -> it_loop step fin k s = Ok (Some s') -> Q s'.
Proof.
  intros Hstep. induction k as [|k IH]; intros s s' HQ H; [discriminate|]. cbn [it_loop] in H.
  destruct (step s) as [s1|e] eqn:E; cbn [bind] in H; [|discriminate].
  destruct (fin s1); [injection H as <-; eauto|eauto].
Qed.

Definition it_good (d : R) (s : it_state) : Prop :=
  match it_a s, it_eff s with Some a, Some e => e = a + d | None, None => it_crit s = None | _, _ => False end.
Lemma it_good_step Kc C m P W t d lt2 ct s s' : it_good d s -> it_step Kc C m P W t d lt2 ct s = Ok s' -> it_good d s'.
Proof.
  unfold it_good, it_step. destruct (it_a s) as [a|], (it_eff s) as [e|]; try contradiction.
  - intros ->. unfold pdiv. destruct (Req_EM_T (t * (W - 2 * d - a)) 0); cbn [bind]; [discriminate|].
    destruct (f_g_at ct W a); [|intros [= <-]; reflexivity].
    destruct (rpow _ m).
    + intros [= <-]. cbn. ring.
    + destruct ct; [discriminate|intros [= <-]; reflexivity].
  - intros _ [= <-]. reflexivity.
Qed.

Lemma iterative_final Kc C m P W t Kt a0 D ct fuel o :
  crack_growth_iterative Kc C m P W t Kt a0 D None ct fuel = Ok (Some o) ->
  exists final len, cgi_final o = Some final /\ cgi_length o = Some len /\ final < len.
Proof.
  unfold crack_growth_iterative. fold (notch D). set (d := notch D).
  destruct (match f_g_at ct W (a0 + d) with None => Ok None | Some f_g => rmap Some (pdiv d ((1.12 * Kt / f_g) ^ 2 - 1)) end)
    as [lt2|e]; cbn [bind]; [|discriminate].
  match goal with |- context [it_loop ?st ?fi fuel ?s0] => destruct (it_loop st fi fuel s0) as [[s|]|e] eqn:E; cbn [bind]; try discriminate;
    assert (it_good d s) as G by (refine (it_loop_inv (it_good d) st fi _ fuel s0 s _ E); [intros u u'; apply it_good_step|reflexivity]);
    apply it_loop_end in E end.
  intros [= <-]. cbn [cgi_final cgi_length]. unfold it_finished in E. rewrite orb_false_r in E.
  unfold it_good in G. destruct (it_crit s) as [c|]; [|discriminate]. destruct (it_eff s) as [e|]; [|destruct (it_a s); contradiction || discriminate].
  destruct (it_a s) as [a|]; [|contradiction]. cbn in E. destruct (Rlt_dec (c * 1000) e); [|discriminate].
  exists (c * 1000 - d), a. repeat split. lra.
Qed.

(** Stage counts add up, and the last stage is never negative. *)
Lemma it_stage1_step Kc C m P W t d lt2 ct u u' : (it_stage1 u <= it_N u)%nat -> it_step Kc C m P W t d lt2 ct u = Ok u' ->
  (it_stage1 u' <= it_N u')%nat.
Proof.
  intros Hu. unfold it_step. destruct (it_a u), (it_eff u); try (intros [= <-]; cbn; lia).
  unfold pdiv. destruct (Req_EM_T _ 0); cbn [bind]; [discriminate|]. destruct (f_g_at ct W r); [|intros [= <-]; cbn; lia].
  destruct (rpow _ m); [|destruct ct; [discriminate|intros [= <-]; cbn; lia]].
  intros [= <-]. cbn [it_stage1 it_N]. destruct (_ && _); lia.
Qed.
Lemma iterative_stages Kc C m P W t Kt a0 D af ct fuel o :
  crack_growth_iterative Kc C m P W t Kt a0 D af ct fuel = Ok (Some o) -> (cgi_Nf_1 o + cgi_Nf_2 o = cgi_Nf_tot o)%nat.
Proof.
  unfold crack_growth_iterative. fold (notch D). set (d := notch D).
  destruct (match f_g_at ct W (a0 + d) with None => Ok None | Some f_g => rmap Some (pdiv d ((1.12 * Kt / f_g) ^ 2 - 1)) end)
    as [lt2|e]; cbn [bind]; [|discriminate].
  match goal with |- context [it_loop ?st ?fi fuel ?s0] => destruct (it_loop st fi fuel s0) as [[s|]|e] eqn:E; cbn [bind]; try discriminate;
    assert (it_stage1 s <= it_N s)%nat as G
     by (refine (it_loop_inv (fun s => it_stage1 s <= it_N s)%nat st fi _ fuel s0 s _ E); [intros u u'; apply it_stage1_step|cbn; lia]) end.
  intros [= <-]. cbn. lia.
Qed.

(** Witness: a centre crack of 1 mm in a 3 mm plate; the first cycle grows it by 1 mm. *)
Definition wC : R := 1000 / (4 * PI ^ 2).
Lemma witness_step a_final k :
  it_loop (it_step 10 wC 4 (1 / 10 ^ 6) 3 (1 / 2) 0 (Some 0) Center) (it_finished 0 a_final) (S k)
    {| it_a := Some 1; it_eff := Some (1 + 0); it_N := 0; it_crit := None; it_stage1 := 0; it_prev := None |} =
  let s := {| it_a := Some 2; it_eff := Some 2; it_N := 1; it_crit := Some (50 / PI); it_stage1 := 0; it_prev := Some 2 |} in
  if it_finished 0 a_final s then Ok (Some s)
  else it_loop (it_step 10 wC 4 (1 / 10 ^ 6) 3 (1 / 2) 0 (Some 0) Center) (it_finished 0 a_final) k s.
Proof.
  cbn [it_loop]. unfold it_step at 1. cbn [it_a it_eff it_N it_prev it_stage1].
  rewrite pdiv_ok by lra. cbn [bind]. unfold f_g_at at 1. pose proof PI_RGT_0 as Hpi.
  replace (PI * 1 / 3) with (PI / 3) by field. rewrite cos_PI3. destruct (Rlt_dec 0 (1 / 2)); [|lra].
  replace (1 / (1 / 2)) with 2 by field.
  assert (nlt (Some 1) (Some 0) = false) as E1 by (cbn; destruct (Rlt_dec 1 0); [lra|reflexivity]). rewrite E1.
  replace (1 / 10 ^ 6 / (1 / 2 * (3 - 2 * 0 - 1)) * 10 ^ 6) with 1 by field.
  replace (1 + 0) with 1 by ring.
  assert (0 < sqrt 2 * 1 * sqrt (PI * 1 / 1000)) as Hk.
  { apply Rmult_lt_0_compat; [rewrite Rmult_1_r; apply sqrt_lt_R0; lra|apply sqrt_lt_R0; lra]. }
  unfold rpow. destruct (Rlt_dec 0 (sqrt 2 * 1 * sqrt (PI * 1 / 1000))); [|contradiction].
  assert (Rpower (sqrt 2 * 1 * sqrt (PI * 1 / 1000)) 4 = 4 * (PI / 1000) ^ 2) as ->.
  { replace 4 with (INR 4) at 1 by (simpl; ring). rewrite Rpower_pow by exact Hk.
    replace ((sqrt 2 * 1 * sqrt (PI * 1 / 1000)) ^ 4) with ((sqrt 2 * sqrt 2) ^ 2 * (sqrt (PI * 1 / 1000) * sqrt (PI * 1 / 1000)) ^ 2) by ring.
    rewrite !sqrt_sqrt by lra. field. }
  replace (wC * (4 * (PI / 1000) ^ 2) * 1000) with 1 by (unfold wC; field; lra).
  replace (1 / PI * (10 / (sqrt 2 * 1)) ^ 2 + 0 / 1000) with (50 / PI).
  2:{ replace ((10 / (sqrt 2 * 1)) ^ 2) with (100 / (sqrt 2 * sqrt 2)) by (field; apply Rgt_not_eq, sqrt_lt_R0; lra).
      rewrite sqrt_sqrt by lra. field. lra. }
  replace (1 + 1) with 2 by ring. cbn [Nat.eqb].
  assert (nlt (Some 2) (Some 0) = false) as E2 by (cbn; destruct (Rlt_dec 2 0); [lra|reflexivity]). rewrite E2. cbn [andb bind].
  reflexivity.
Qed.

Lemma nan_loop Kc C m P W t d lt2 ct af : forall k s, it_a s = None ->
  it_loop (it_step Kc C m P W t d lt2 ct) (it_finished d af) k s = Ok None.
Proof.
  induction k as [|k IH]; intros s H; [reflexivity|]. cbn [it_loop]. unfold it_step at 1. rewrite H. cbn [bind].
  assert (it_finished d af (nan_state s) = false) as -> by (unfold it_finished; cbn; destruct af; reflexivity).
  apply IH. reflexivity.
Qed.

Lemma witness_lt2 : rmap Some (pdiv 0 ((1.12 * 1 / sqrt 2) ^ 2 - 1)) = Ok (Some 0).
Proof.
  assert (0 < sqrt 2) by (apply sqrt_lt_R0; lra). assert (sqrt 2 * sqrt 2 = 2) as E by (apply sqrt_sqrt; lra).
  rewrite pdiv_ok; [cbn; do 2 f_equal; unfold Rdiv; ring|].
  replace ((1.12 * 1 / sqrt 2) ^ 2) with (1.12 * 1.12 / (sqrt 2 * sqrt 2)) by (field; lra). rewrite E. lra.
Qed.
Lemma witness_unfold a_final k :
  crack_growth_iterative 10 wC 4 (1 / 10 ^ 6) 3 (1 / 2) 1 1 None a_final Center k =
  let! r := it_loop (it_step 10 wC 4 (1 / 10 ^ 6) 3 (1 / 2) 0 (Some 0) Center) (it_finished 0 a_final) k
    {| it_a := Some 1; it_eff := Some (1 + 0); it_N := 0; it_crit := None; it_stage1 := 0; it_prev := None |} in
  Ok (match r with
      | None => None
      | Some s => Some {| cgi_Nf_1 := it_stage1 s; cgi_Nf_2 := (it_N s - it_stage1 s)%nat; cgi_Nf_tot := it_N s;
                          cgi_final := option_map (fun c => c * 1000 - 0) (it_crit s); cgi_length := it_a s |}
      end).
Proof.
  unfold crack_growth_iterative. unfold f_g_at at 1. replace (PI * (1 + 0) / 3) with (PI / 3) by field. rewrite cos_PI3.
  destruct (Rlt_dec 0 (1 / 2)); [|lra]. replace (1 / (1 / 2)) with 2 by field. rewrite witness_lt2. reflexivity.
Qed.
Lemma crit_big : 12500 <= 50 / PI * 1000.
Proof.
  pose proof PI_4. pose proof PI_RGT_0. apply (Rmult_le_reg_r PI); [lra|]. replace (50 / PI * 1000 * PI) with 50000 by (field; lra). lra.
Qed.

(** The loop never ends. *)
Lemma iterative_diverges k : crack_growth_iterative 10 wC 4 (1 / 10 ^ 6) 3 (1 / 2) 1 1 None None Center k = Ok None.
Proof.
  rewrite witness_unfold. destruct k as [|k]; [reflexivity|]. rewrite witness_step. cbv zeta.
  assert (it_finished 0 None {| it_a := Some 2; it_eff := Some 2; it_N := 1; it_crit := Some (50 / PI); it_stage1 := 0; it_prev := Some 2 |} = false) as ->.
  { unfold it_finished. cbn. pose proof crit_big. destruct (Rlt_dec (50 / PI * 1000) 2); [lra|reflexivity]. }
  destruct k as [|k]; [reflexivity|]. cbn [it_loop]. unfold it_step at 1. cbn [it_a it_eff].
  rewrite pdiv_ok by lra. cbn [bind]. unfold f_g_at at 1.
  replace (PI * 2 / 3) with (2 * (PI / 3)) by field. rewrite cos_2PI3. destruct (Rlt_dec 0 (-1 / 2)); [lra|].
  cbn [bind]. match goal with |- context [it_finished 0 None (nan_state ?s)] => assert (it_finished 0 None (nan_state s) = false) as -> by reflexivity end.
  rewrite nan_loop by reflexivity. reflexivity.
Qed.

(** Asked to stop at 1 mm, it reports a final length of 50000/PI mm for a crack of 2 mm. *)
Lemma iterative_final_wrong : exists o, crack_growth_iterative 10 wC 4 (1 / 10 ^ 6) 3 (1 / 2) 1 1 None (Some 1) Center 1 = Ok (Some o) /\
  cgi_length o = Some 2 /\ cgi_final o = Some (50 / PI * 1000).
Proof.
  rewrite witness_unfold, witness_step. cbv zeta.
  assert (it_finished 0 (Some 1) {| it_a := Some 2; it_eff := Some 2; it_N := 1; it_crit := Some (50 / PI); it_stage1 := 0; it_prev := Some 2 |} = true) as ->.
  { unfold it_finished. cbn. rewrite orb_true_iff. right. destruct (Rlt_dec (1 + 0) 2); [reflexivity|lra]. }
  cbn [bind]. eexists. split; [reflexivity|]. cbn. split; [reflexivity|]. f_equal. ring.
Qed.

(** ** Creep rupture curves *)
Fixpoint offsets (blocks : list (R * nat)) (i : nat) : list (R * nat) :=
  match blocks with [] => [] | (t, n) :: r => (t, i) :: offsets r (i + S n) end.
Notation expand := (flat_map (fun b : R * nat => repeat (fst b) (S (snd b)))).

Lemma first_occ_seen seen i t n rest : In t seen ->
  first_occurrences seen i (repeat t n ++ rest) = first_occurrences seen (i + n) rest.
Proof.
  intros H. revert i. induction n as [|n IH]; intros i; [cbn; f_equal; lia|]. cbn [repeat app first_occurrences].
  destruct (in_dec Req_EM_T t seen); [|contradiction]. rewrite IH. f_equal. lia.
Qed.
Lemma first_occ_blocks blocks : forall seen i, NoDup (map fst blocks) -> (forall t, In t (map fst blocks) -> ~ In t seen) ->
  first_occurrences seen i (expand blocks) = offsets blocks i.
Proof.
  induction blocks as [|[t n] bl IH]; intros seen i Hnd Hs; [reflexivity|]. cbn [flat_map fst snd map offsets] in *.
  cbn [repeat app first_occurrences]. destruct (in_dec Req_EM_T t seen) as [H|_]; [exfalso; apply (Hs t); [now left|exact H]|].
  f_equal. rewrite first_occ_seen by now left. inversion Hnd; subst. rewrite IH; [f_equal; lia|assumption|].
  intros u Hu [->|Hin]; [contradiction|]. now apply (Hs u); [right|].
Qed.
Lemma at_temp_block t n tl data : (n <= length data)%nat -> ~ In t tl ->
  at_temp t (repeat t n ++ tl) data = firstn n data.
Proof.
  revert data. induction n as [|n IH]; intros data Hl Hn.
  - cbn. clear Hl. revert data. induction tl as [|u tl IHtl]; intros data; [reflexivity|].
    destruct data as [|p data]; [reflexivity|]. cbn. destruct (Req_EM_T u t) as [->|]; [exfalso; apply Hn; now left|].
    apply IHtl. intros H; apply Hn; now right.
  - destruct data as [|p data]; [cbn in Hl; lia|]. cbn [repeat app at_temp firstn]. destruct (Req_EM_T t t); [|congruence].
    f_equal. apply IH; [cbn in Hl; lia|exact Hn].
Qed.
Lemma at_temp_other T t n tl data : T <> t -> at_temp T (repeat t n ++ tl) data = at_temp T tl (skipn n data).
Proof.
  intros H. revert data. induction n as [|n IH]; intros data; [reflexivity|]. cbn [repeat app at_temp].
  destruct data as [|p data]; [rewrite skipn_nil; destruct tl; reflexivity|].
  destruct (Req_EM_T t T); [congruence|]. cbn [skipn]. apply IH.
Qed.
Lemma in_expand u blocks : In u (expand blocks) -> In u (map fst blocks).
Proof.
  intros H. apply in_flat_map in H. destruct H as (b & Hb & Hu). apply repeat_spec in Hu. subst. now apply in_map.
Qed.
Lemma segments_blocks blocks : forall pre rest, NoDup (map fst blocks) -> length rest = length (expand blocks) ->
  segments (offsets blocks (length pre)) (length pre + length rest) (pre ++ rest) =
  map (fun T => (T, at_temp T (expand blocks) rest)) (map fst blocks).
Proof.
  induction blocks as [|[t n] bl IH]; intros pre rest Hnd Hl; [reflexivity|].
  inversion Hnd as [|? ? Hni Hnd']; subst. cbn [map fst offsets segments].
  cbn [flat_map fst snd] in Hl. rewrite app_length, repeat_length in Hl.
  assert (length (firstn (S n) rest) = S n) as Hf by (apply firstn_length_le; lia).
  assert (length (skipn (S n) rest) = length (expand bl)) as Hsk by (rewrite skipn_length; lia).
  assert (slice (pre ++ rest) (length pre) (length pre + S n) = firstn (S n) rest) as Hs1.
  { unfold slice. rewrite skipn_app, skipn_all, Nat.sub_diag. cbn [app skipn]. f_equal. lia. }
  f_equal.
  - f_equal. cbn [flat_map fst snd]. rewrite at_temp_block; [|lia|intros H; apply Hni; now apply in_expand].
    destruct bl as [|[t2 n2] bl2]; cbn [offsets]; [|exact Hs1].
    rewrite skipn_length in Hsk. cbn [flat_map length] in Hsk. replace (length pre + length rest)%nat with (length pre + S n)%nat by lia. exact Hs1.
  - specialize (IH (pre ++ firstn (S n) rest) (skipn (S n) rest) Hnd' Hsk).
    rewrite <- app_assoc, firstn_skipn, app_length, Hf in IH.
    replace (length pre + S n + length (skipn (S n) rest))%nat with (length pre + length rest)%nat in IH by (rewrite skipn_length; lia).
    rewrite IH. apply map_ext_in. intros T HT. f_equal. cbn [flat_map fst snd]. symmetry. apply at_temp_other. intros ->. contradiction.
Qed.

Lemma creep_groups_spec temps data : grouped temps -> length data = length temps ->
  (forall T, In T temps <-> In T (map fst (creep_groups temps data))) /\
  (forall T seg, In (T, seg) (creep_groups temps data) -> seg = at_temp T temps data) /\
  NoDup (map fst (creep_groups temps data)).
Proof.
  intros (blocks & Hnd & ->) Hl. unfold creep_groups. rewrite first_occ_blocks; [|exact Hnd|intros ? _ []].
  pose proof (segments_blocks blocks [] data Hnd Hl) as E. cbn [length app Nat.add] in E. rewrite <- Hl, E.
  rewrite map_map. cbn [fst]. rewrite map_id. repeat split.
  - apply in_expand.
  - intros H. apply in_map_iff in H. destruct H as (b & <- & Hb). apply in_flat_map. exists b. split; [exact Hb|]. now left.
  - intros T seg H. apply in_map_iff in H. destruct H as (T' & [= <- <-] & _). reflexivity.
  - exact Hnd.
Qed.

Lemma creep_default_fails temps stress ttf : creep_rupture_curves temps stress ttf None None = Err ValueError.
Proof. unfold creep_rupture_curves. destruct (_ || _ || _); [reflexivity|]. destruct (_ || _); reflexivity. Qed.

Lemma find_some_key (l : list (R * list (R * R))) T : In T (map fst l) ->
  exists seg, find (fun g => if Req_EM_T (fst g) T then true else false) l = Some (T, seg) /\ In (T, seg) l.
Proof.
  induction l as [|[u s] l IH]; intros H; [destruct H|]. cbn [find fst]. destruct (Req_EM_T u T) as [->|Hn].
  - exists s. split; [reflexivity|now left].
  - destruct H as [H|H]; [contradiction|]. destruct (IH H) as (seg & E & Hin). exists seg. split; [exact E|now right].
Qed.

Lemma combine_map_pair (f g : (R * R) -> R) l : combine (map f l) (map g l) = map (fun p => (f p, g p)) l.
Proof. induction l as [|p l IH]; [reflexivity|]. cbn. now rewrite IH. Qed.

Lemma creep_trace temps stress ttf y T : grouped temps -> length stress = length temps -> length ttf = length temps ->
  (2 <= length temps)%nat -> In T temps ->
  let pts := map (fun p => (log10 (snd p), fst p)) (at_temp T temps (combine stress ttf)) in
  Sxx pts <> 0 -> lsq_slope pts <> 0 ->
  exists x, creep_rupture_curves temps stress ttf (Some y) (Some T) = Ok (Some x) /\ 0 < x /\
    lsq_slope pts * log10 x + lsq_intercept pts = y.
Proof.
  intros Hg Hs Hl H2 HT pts HS Hm. unfold creep_rupture_curves. rewrite Hs, Hl, !Nat.eqb_refl.
  assert (Nat.ltb (length temps) 2 = false) as -> by (apply Nat.ltb_ge; lia). cbn [orb negb].
  assert (length (combine stress ttf) = length temps) as Hc by (rewrite combine_length; lia).
  destruct (creep_groups_spec temps (combine stress ttf) Hg Hc) as (G1 & G2 & _).
  destruct (find_some_key (creep_groups temps (combine stress ttf)) T) as (seg & -> & Hin); [now apply G1|].
  apply G2 in Hin. subst seg. unfold polyfit1. rewrite combine_map_pair. fold pts. destruct (Req_EM_T (Sxx pts) 0); [contradiction|].
  eexists. split; [reflexivity|]. split; [apply pow10_pos|]. rewrite log10_pow10. field. exact Hm.
Qed.

Lemma creep_ungrouped : exists temps data, length data = length temps /\ exists T seg,
  In (T, seg) (creep_groups temps data) /\ seg <> at_temp T temps data.
Proof.
  exists [900; 1000; 900], [(90, 37); (80, 7); (82, 975)]. split; [reflexivity|]. exists 900, [(90, 37)].
  unfold creep_groups. cbn [first_occurrences]. destruct (in_dec Req_EM_T 900 []) as [[]|_].
  destruct (in_dec Req_EM_T 1000 [900]) as [[H|[]]|_]; [lra|]. destruct (in_dec Req_EM_T 900 [1000; 900]) as [_|H]; [|exfalso; apply H; right; now left].
  split; [now left|]. cbn. destruct (Req_EM_T 900 900); [|congruence]. destruct (Req_EM_T 1000 900); [lra|]. discriminate.
Qed.
