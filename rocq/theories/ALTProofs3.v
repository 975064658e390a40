(** Proofs about ALT_least_squares. *)
From Coquelicot Require Import Coquelicot.
From Coq Require Import String.
From Coq Require Import List Arith Reals Lra Lia Bool ZArith.
From Verif Require Import Base RealFacts Gauss Ext RList ConvertModel RepairModel DistModel CombModel CombProofs RegModel RegSpec RegProofs PoFProofs2 FitModel FitSpec
  SelModel CIModel CISpec OtherModel OtherSpec ALTModel ALTSpec ALTProofs ALTProofs2.
Import ListNotations.
Open Scope R_scope.

Section Plane.
  Context {A : Type} (x y z : A -> R).
  Definition sm (g : A -> R) (f : list A) : R := rsum (map g f).
  Lemma sm_cons g a f : sm g (a :: f) = g a + sm g f.
  Proof. unfold sm. cbn [map]. apply rsum_cons. Qed.
  Lemma dotp_map (u v : A -> R) f : dotp (map u f) (map v f) = sm (fun i => u i * v i) f.
  Proof. unfold dotp. now rewrite zip_map. Qed.
  Definition err (s0 s1 s2 : R) (f : list A) : R := sm (fun i => (z i - (s0 + s1 * x i + s2 * y i)) ^ 2) f.
  Definition Sn (f : list A) := INR (length f : nat).
  Lemma err_form s0 s1 s2 f : err s0 s1 s2 f = sm (fun i => z i * z i) f + s0 * s0 * Sn f + s1 * s1 * sm (fun i => x i * x i) f + s2 * s2 * sm (fun i => y i * y i) f
    - 2 * s0 * sm z f - 2 * s1 * sm (fun i => x i * z i) f - 2 * s2 * sm (fun i => y i * z i) f
    + 2 * s0 * s1 * sm x f + 2 * s0 * s2 * sm y f + 2 * s1 * s2 * sm (fun i => x i * y i) f.
  Proof.
    unfold err, Sn. induction f as [|a f IH]; [unfold sm; cbn; ring|]. rewrite !sm_cons, IH. cbn [length]. rewrite S_INR. ring.
  Qed.
  Definition quad (d0 d1 d2 : R) f := d0 * d0 * Sn f + d1 * d1 * sm (fun i => x i * x i) f + d2 * d2 * sm (fun i => y i * y i) f
    + 2 * d0 * d1 * sm x f + 2 * d0 * d2 * sm y f + 2 * d1 * d2 * sm (fun i => x i * y i) f.
  Lemma quad_form d0 d1 d2 f : quad d0 d1 d2 f = sm (fun i => (d0 + d1 * x i + d2 * y i) ^ 2) f.
  Proof. unfold quad, Sn. induction f as [|a f IH]; [unfold sm; cbn; ring|]. rewrite !sm_cons, <- IH. cbn [length]. rewrite S_INR. ring. Qed.
  Lemma sm_sq_nonneg (g : A -> R) f : 0 <= sm (fun i => g i ^ 2) f.
  Proof. unfold sm. apply rsum_nonneg. apply Forall_forall. intros v Hv. apply in_map_iff in Hv. destruct Hv as (i & <- & _). apply pow2_ge_0. Qed.
  Lemma sm_sq_zero (g : A -> R) f : sm (fun i => g i ^ 2) f = 0 -> forall i, In i f -> g i = 0.
  Proof.
    intros H i Hi. unfold sm in H. assert (Forall (fun v => v = 0) (map (fun i => g i ^ 2) f)) as HF.
    { apply rsum_zero_nonneg; [|exact H]. apply Forall_forall. intros v Hv. apply in_map_iff in Hv. destruct Hv as (j & <- & _). apply pow2_ge_0. }
    rewrite Forall_forall in HF. specialize (HF (g i ^ 2) (in_map (fun i => g i ^ 2) f i Hi)). nra.
  Qed.
  Definition normal_equations s0 s1 s2 f : Prop :=
    s0 * Sn f + s1 * sm x f + s2 * sm y f = sm z f /\
    s0 * sm x f + s1 * sm (fun i => x i * x i) f + s2 * sm (fun i => x i * y i) f = sm (fun i => x i * z i) f /\
    s0 * sm y f + s1 * sm (fun i => x i * y i) f + s2 * sm (fun i => y i * y i) f = sm (fun i => y i * z i) f.
  Lemma normal_optimal s0 s1 s2 t0 t1 t2 f : normal_equations s0 s1 s2 f -> err s0 s1 s2 f <= err t0 t1 t2 f.
  Proof.
    intros (N0 & N1 & N2). assert (err t0 t1 t2 f = err s0 s1 s2 f + quad (t0 - s0) (t1 - s1) (t2 - s2) f) as E.
    { rewrite !err_form. unfold quad. rewrite <- N0, <- N1, <- N2. ring. }
    rewrite E, quad_form. pose proof (sm_sq_nonneg (fun i => t0 - s0 + (t1 - s1) * x i + (t2 - s2) * y i) f). cbv beta in *. lra.
  Qed.
  Definition det3 f : R :=
    let n := Sn f in let sx := sm x f in let sy := sm y f in let sxx := sm (fun i => x i * x i) f in let sxy := sm (fun i => x i * y i) f in let syy := sm (fun i => y i * y i) f in
    n * (sxx * syy - sxy * sxy) - sx * (sx * syy - sxy * sy) + sy * (sx * sxy - sxx * sy).
  Lemma solve3_cases f : (det3 f = 0 /\ solve3 (map x f) (map y f) (map z f) = None) \/
    (det3 f <> 0 /\ exists s0 s1 s2, solve3 (map x f) (map y f) (map z f) = Some (s0, s1, s2) /\ normal_equations s0 s1 s2 f).
  Proof.
    unfold solve3. rewrite !dotp_map, map_length. fold (sm x f) (sm y f) (sm z f) (Sn f).
    assert (sm (fun i => y i * x i) f = sm (fun i => x i * y i) f) as _ by (unfold sm; apply rsum_ext; intros; ring).
    unfold det3. cbv zeta. destruct (Req_EM_T _ 0) as [E|N]; [now left|]. right. split; [exact N|]. do 3 eexists. split; [reflexivity|].
    unfold normal_equations. repeat split; field; exact N.
  Qed.
  Lemma normal_unique s0 s1 s2 t0 t1 t2 f : det3 f <> 0 -> normal_equations s0 s1 s2 f -> normal_equations t0 t1 t2 f -> s0 = t0 /\ s1 = t1 /\ s2 = t2.
  Proof.
    intros Hd (A0 & A1 & A2) (B0 & B1 & B2). unfold det3 in Hd. cbv zeta in Hd. rewrite <- B0 in A0. rewrite <- B1 in A1. rewrite <- B2 in A2. clear B0 B1 B2.
    set (n := Sn f) in *. set (sx := sm x f) in *. set (sy := sm y f) in *. set (sxx := sm (fun i => x i * x i) f) in *. set (sxy := sm (fun i => x i * y i) f) in *. set (syy := sm (fun i => y i * y i) f) in *.
    set (D := n * (sxx * syy - sxy * sxy) - sx * (sx * syy - sxy * sy) + sy * (sx * sxy - sxx * sy)) in *.
    assert (D * (s0 - t0) = 0) as E0.
    { replace (D * (s0 - t0)) with ((sxx * syy - sxy * sxy) * ((s0 * n + s1 * sx + s2 * sy) - (t0 * n + t1 * sx + t2 * sy)) - (sx * syy - sxy * sy) * ((s0 * sx + s1 * sxx + s2 * sxy) - (t0 * sx + t1 * sxx + t2 * sxy))
        + (sx * sxy - sxx * sy) * ((s0 * sy + s1 * sxy + s2 * syy) - (t0 * sy + t1 * sxy + t2 * syy))) by (unfold D; ring). rewrite A0, A1, A2. ring. }
    assert (D * (s1 - t1) = 0) as E1.
    { replace (D * (s1 - t1)) with (- (sx * syy - sy * sxy) * ((s0 * n + s1 * sx + s2 * sy) - (t0 * n + t1 * sx + t2 * sy)) + (n * syy - sy * sy) * ((s0 * sx + s1 * sxx + s2 * sxy) - (t0 * sx + t1 * sxx + t2 * sxy))
        - (n * sxy - sx * sy) * ((s0 * sy + s1 * sxy + s2 * syy) - (t0 * sy + t1 * sxy + t2 * syy))) by (unfold D; ring). rewrite A0, A1, A2. ring. }
    assert (D * (s2 - t2) = 0) as E2.
    { replace (D * (s2 - t2)) with ((sx * sxy - sy * sxx) * ((s0 * n + s1 * sx + s2 * sy) - (t0 * n + t1 * sx + t2 * sy)) - (n * sxy - sy * sx) * ((s0 * sx + s1 * sxx + s2 * sxy) - (t0 * sx + t1 * sxx + t2 * sxy))
        + (n * sxx - sx * sx) * ((s0 * sy + s1 * sxy + s2 * syy) - (t0 * sy + t1 * sxy + t2 * syy))) by (unfold D; ring). rewrite A0, A1, A2. ring. }
    apply Rmult_integral in E0, E1, E2. repeat split; [destruct E0|destruct E1|destruct E2]; try contradiction; lra.
  Qed.
  Lemma exact_normal s0 s1 s2 f : (forall i, In i f -> z i = s0 + s1 * x i + s2 * y i) -> normal_equations s0 s1 s2 f.
  Proof.
    unfold normal_equations, Sn. induction f as [|a f IH]; intros H; [unfold sm; cbn; repeat split; ring|]. destruct IH as (A0 & A1 & A2); [intros i Hi; apply H; now right|].
    specialize (H a (or_introl eq_refl)). rewrite !sm_cons, <- A0, <- A1, <- A2, H. cbn [length]. rewrite S_INR. repeat split; ring.
  Qed.
  Lemma solve3_exact s0 s1 s2 f : det3 f <> 0 -> (forall i, In i f -> z i = s0 + s1 * x i + s2 * y i) -> solve3 (map x f) (map y f) (map z f) = Some (s0, s1, s2).
  Proof.
    intros Hd H. destruct (solve3_cases f) as [[E _]|(_ & t0 & t1 & t2 & E & N)]; [contradiction|]. destruct (normal_unique t0 t1 t2 s0 s1 s2 f Hd N (exact_normal _ _ _ _ H)) as (-> & -> & ->). exact E.
  Qed.
  (** A singular matrix means that the points lie on one line. *)
  Lemma det3_zero f : (exists i j, In i f /\ In j f /\ x i <> x j) -> det3 f = 0 -> exists a b c, (a <> 0 \/ b <> 0) /\ forall i, In i f -> a * x i + b * y i = c.
  Proof.
    intros (i0 & j0 & Hi & Hj & Hne) H. assert (0 < Sn f) as Hn by (unfold Sn; apply lt_0_INR; destruct f; [destruct Hi|cbn; lia]).
    set (n := Sn f) in *. set (sx := sm x f). set (sy := sm y f). set (sxx := sm (fun i => x i * x i) f). set (sxy := sm (fun i => x i * y i) f). set (syy := sm (fun i => y i * y i) f).
    set (cxx := n * sxx - sx * sx). set (cxy := n * sxy - sx * sy). set (cyy := n * syy - sy * sy).
    assert (n * det3 f = cxx * cyy - cxy * cxy) as E1 by (unfold det3; fold n sx sy sxx sxy syy; cbv zeta; unfold cxx, cxy, cyy; ring).
    rewrite H, Rmult_0_r in E1.
    set (d1 := - cxy). set (d2 := cxx). set (d0 := (cxy * sx - cxx * sy) / n).
    assert (sm (fun i => (d0 + d1 * x i + d2 * y i) ^ 2) f = cxx * (cxx * cyy - cxy * cxy) / n) as E2.
    { rewrite <- quad_form. unfold quad. fold n sx sy sxx sxy syy. unfold d0, d1, d2, cxx, cxy, cyy. field. lra. }
    rewrite <- E1, Rmult_0_r in E2. unfold Rdiv in E2. rewrite Rmult_0_l in E2. pose proof (sm_sq_zero (fun i => d0 + d1 * x i + d2 * y i) f E2) as Z.
    exists d1, d2, (- d0). split; [|intros i HI; specialize (Z i HI); cbv beta in Z; lra]. right. intros E.
    assert (sm (fun i => (sx / n + (- 1) * x i + 0 * y i) ^ 2) f = cxx / n) as E3 by (rewrite <- quad_form; unfold quad; fold n sx sy sxx sxy syy; unfold cxx; field; lra).
    fold d2 in E3. rewrite E in E3. unfold Rdiv in E3 at 2. rewrite Rmult_0_l in E3. pose proof (sm_sq_zero (fun i => sx / n + (- 1) * x i + 0 * y i) f E3) as W.
    pose proof (W i0 Hi). pose proof (W j0 Hj). cbv beta in *. apply Hne. lra.
  Qed.
End Plane.

Section Line.
  Context {A : Type} (x y : A -> R).
  Lemma combine_map2 f : combine (map x f) (map y f) = map (fun i => (x i, y i)) f.
  Proof. induction f as [|a f IH]; [reflexivity|]. cbn [map combine]. now rewrite IH. Qed.
  Lemma line_optimal f m c : line (map x f) (map y f) = Ok (m, c) -> forall m' c', sm (fun i => (y i - (m * x i + c)) ^ 2) f <= sm (fun i => (y i - (m' * x i + c')) ^ 2) f.
  Proof.
    unfold line. intros H m' c'. apply bind_ok in H. destruct H as (l & H1 & H2). destruct l as [[m0 c0]|]; [|discriminate]. injection H2 as -> ->.
    apply rry_optimal in H1. destruct H1 as (_ & _ & _ & _ & H1). specialize (H1 m' c' ltac:(intros w; discriminate) ltac:(intros w; discriminate)).
    unfold vertical in H1. rewrite combine_map2, !map_map in H1. exact H1.
  Qed.
  Lemma line_exactly f m c : (exists i j, In i f /\ In j f /\ x i <> x j) -> (forall i, In i f -> y i = m * x i + c) -> line (map x f) (map y f) = Ok (m, c).
  Proof.
    intros (i & j & Hi & Hj & N) H. destruct (line_ok (map x f) (map y f)) as [[m' c'] E]; [now rewrite !map_length|exists (x i), (x j); split; [now apply in_map|]; split; [now apply in_map|exact N]|].
    rewrite E. pose proof (line_optimal f m' c' E m c) as O. assert (sm (fun i => (y i - (m * x i + c)) ^ 2) f = 0) as Z.
    { unfold sm. rewrite (rsum_ext _ (fun _ => 0)) by (intros k Hk; rewrite (H k Hk); ring). rewrite rsum_const. ring. }
    assert (sm (fun i => (y i - (m' * x i + c')) ^ 2) f = 0) as Z' by (apply Rle_antisym; [now rewrite <- Z|apply sm_sq_nonneg]).
    pose proof (sm_sq_zero (fun i => y i - (m' * x i + c')) f Z') as K. pose proof (K i Hi) as Ki. pose proof (K j Hj) as Kj. cbv beta in Ki, Kj. rewrite (H i Hi) in Ki. rewrite (H j Hj) in Kj.
    assert ((m - m') * (x i - x j) = 0) as P by lra. apply Rmult_integral in P. destruct P as [P|P]; [|lra]. assert (m' = m) by lra. subst m'. f_equal. f_equal. lra.
  Qed.
End Line.

(** ** The lives on the logarithmic scale *)
Definition log_life (m : ls_model) (p : ls_params) (s : R * R) : R :=
  let x := scale_1 m (fst s) in let y := scale_2 m (snd s) in
  match m with
  | OtherModel.LS_Exponential => ln (l_1 p) + l_0 p * x
  | LS_Eyring => - ln (fst s) - l_1 p + l_0 p * x
  | LS_Power => ln (l_0 p) + l_1 p * x
  | LS_Dual_Exponential => ln (l_2 p) + l_0 p * x + l_1 p * y
  | LS_Power_Exponential => ln (l_1 p) + l_0 p * x + l_2 p * y
  | LS_Dual_Power => ln (l_0 p) + l_1 p * x + l_2 p * y
  end.
Lemma ln_life m p s : scale_ok m p -> 0 < fst s -> ln (alt_life m p (fst s) (snd s)) = log_life m p s.
Proof.
  intros Hs H1. unfold Rpower, log_life. destruct m; cbn [alt_life scale_ok scale_1 scale_2] in *; unfold Rpower.
  - rewrite ln_mult, ln_exp by (auto using exp_pos). field. lra.
  - rewrite ln_mult, ln_exp by (auto using exp_pos, Rdiv_lt_0_compat, Rlt_0_1). unfold Rdiv at 1. rewrite Rmult_1_l, ln_Rinv by exact H1. field. lra.
  - rewrite ln_mult, ln_exp by (auto using exp_pos). ring.
  - rewrite ln_mult, ln_exp by (auto using exp_pos). unfold Rdiv. ring.
  - rewrite !ln_mult, !ln_exp by (auto using exp_pos, Rmult_lt_0_compat). unfold Rdiv. ring.
  - rewrite !ln_mult, !ln_exp by (auto using exp_pos, Rmult_lt_0_compat). ring.
Qed.
Lemma error_form m p f e : scale_ok m p -> Forall (positive_item (dual_stress m)) f ->
  squared_log_error m p f e <-> e = sm (fun i => (ln (fst i) - log_life m p (snd i)) ^ 2) f.
Proof.
  intros Hs Hf. rewrite Forall_forall in Hf. assert (forall i, In i f -> ln (alt_life m p (fst (snd i)) (snd (snd i))) = log_life m p (snd i)) as K.
  { intros i Hi. apply ln_life; [exact Hs|apply Hf, Hi]. }
  assert (forall i, In i f -> fst (snd i) <> 0) as K0 by (intros i Hi; destruct (Hf i Hi) as (_ & H & _); lra). clear Hf.
  assert (forall lives, Forall2 (fun i l => life_stress m (named m p) (fst (snd i)) (snd (snd i)) l) f lives <-> lives = map (fun i => alt_life m p (fst (snd i)) (snd (snd i))) f) as KL.
  { clear K. induction f as [|i f IH]; intros lives; split; intros H.
    - inversion H. reflexivity.
    - subst. constructor.
    - inversion H as [|? l ? ls Hl HF]; subst. cbn [map]. f_equal; [eapply life_unique; [exact Hl|apply life_spec, K0; now left]|apply IH; [intros j Hj; apply K0; now right|exact HF]].
    - subst. cbn [map]. constructor; [apply life_spec, K0; now left|apply IH; [intros j Hj; apply K0; now right|reflexivity]]. }
  assert (rsum (map (fun x : R * (R * R) * R => (ln (fst (fst x)) - ln (snd x)) ^ 2) (combine f (map (fun i => alt_life m p (fst (snd i)) (snd (snd i))) f))) = sm (fun i => (ln (fst i) - log_life m p (snd i)) ^ 2) f) as KS.
  { clear KL K0. induction f as [|i f IH]; [reflexivity|]. cbn [map combine]. rewrite rsum_cons, sm_cons, IH by (intros j Hj; apply K; now right). cbn [fst snd]. rewrite (K i (or_introl eq_refl)). reflexivity. }
  unfold squared_log_error. split.
  - intros (lives & HL & ->). apply KL in HL. subst lives. exact KS.
  - intros ->. eexists. split; [apply KL; reflexivity|]. symmetry. exact KS.
Qed.

(** ** ALT_least_squares on items *)
Definition times (f : list (R * (R * R))) : list R := map fst f.
Definition stress_1 (f : list (R * (R * R))) : list R := map (fun i => fst (snd i)) f.
Definition stress_2 (f : list (R * (R * R))) : list R := map (fun i => snd (snd i)) f.
Lemma scaled_1 m f : map (scale_1 m) (stress_1 f) = map (fun i => scale_1 m (fst (snd i))) f.
Proof. unfold stress_1. now rewrite map_map. Qed.
Lemma scaled_2 m f : map (scale_2 m) (stress_2 f) = map (fun i => scale_2 m (snd (snd i))) f.
Proof. unfold stress_2. now rewrite map_map. Qed.
Lemma scaled_t f : map ln (times f) = map (fun i => ln (fst i)) f.
Proof. unfold times. now rewrite map_map. Qed.
(** The straight line or plane that is fitted, and the parameters that correspond to its coefficients. *)
Definition height (m : ls_model) (i : R * (R * R)) : R := match m with LS_Eyring => ln (fst i) + ln (fst (snd i)) | _ => ln (fst i) end.
Definition from_line (m : ls_model) (s c : R) : ls_params :=
  match m with LS_Eyring => {| l_0 := s; l_1 := - c; l_2 := 0 |} | LS_Power => {| l_0 := exp c; l_1 := s; l_2 := 0 |} | _ => {| l_0 := s; l_1 := exp c; l_2 := 0 |} end.
Definition from_plane (m : ls_model) (s0 s1 s2 : R) : ls_params :=
  match m with
  | LS_Dual_Exponential => {| l_0 := s1; l_1 := s2; l_2 := exp s0 |}
  | LS_Power_Exponential => {| l_0 := s1; l_1 := exp s0; l_2 := s2 |}
  | _ => {| l_0 := exp s0; l_1 := s1; l_2 := s2 |}
  end.
Lemma least_squares_single m noisy f S2 : dual_stress m = false ->
  ALT_least_squares m noisy (times f) (stress_1 f) S2 =
  (let! s := line (map (fun i => scale_1 m (fst (snd i))) f) (map (height m) f) in Ok (from_line m (fst s) (snd s))).
Proof.
  intros H. destruct m; try discriminate; cbn [ALT_least_squares scale_1 height from_line]; unfold inverses, logs, times, stress_1; rewrite !map_map; try reflexivity. now rewrite zip_map.
Qed.
Lemma least_squares_dual m noisy f : dual_stress m = true ->
  ALT_least_squares m noisy (times f) (stress_1 f) (stress_2 f) =
  (let '(s0, s1, s2) := plane noisy (map (fun i => scale_1 m (fst (snd i))) f) (map (fun i => scale_2 m (snd (snd i))) f) (map (fun i => ln (fst i)) f) in Ok (from_plane m s0 s1 s2)).
Proof. intros H. destruct m; try discriminate; cbn [ALT_least_squares scale_1 scale_2 from_plane]; unfold inverses, logs, times, stress_1, stress_2; rewrite !map_map; reflexivity. Qed.
Lemma from_line_ok m s c : dual_stress m = false -> scale_ok m (from_line m s c).
Proof. destruct m; try discriminate; cbn; auto using exp_pos. Qed.
Lemma from_plane_ok m s0 s1 s2 : dual_stress m = true -> scale_ok m (from_plane m s0 s1 s2).
Proof. destruct m; try discriminate; cbn; auto using exp_pos. Qed.
(** Every set of parameters is a line or a plane. *)
Lemma line_params m p : dual_stress m = false -> exists s c, forall i : R * (R * R), ln (fst i) - log_life m p (snd i) = height m i - (s * scale_1 m (fst (snd i)) + c).
Proof.
  intros H. destruct m; try discriminate; cbn [log_life height]; cbv zeta.
  - exists (l_0 p), (ln (l_1 p)). intros. ring.
  - exists (l_0 p), (- l_1 p). intros. ring.
  - exists (l_1 p), (ln (l_0 p)). intros. ring.
Qed.
Lemma from_line_life m s c i : dual_stress m = false -> ln (fst i) - log_life m (from_line m s c) (snd i) = height m i - (s * scale_1 m (fst (snd i)) + c).
Proof. intros H. destruct m; try discriminate; cbn [log_life height from_line l_0 l_1 l_2]; cbv zeta; rewrite ?ln_exp; ring. Qed.
Lemma plane_params m p : dual_stress m = true -> exists s0 s1 s2, forall i : R * (R * R), log_life m p (snd i) = s0 + s1 * scale_1 m (fst (snd i)) + s2 * scale_2 m (snd (snd i)).
Proof.
  intros H. destruct m; try discriminate; cbn [log_life]; cbv zeta.
  - exists (ln (l_2 p)), (l_0 p), (l_1 p). intros. ring.
  - exists (ln (l_1 p)), (l_0 p), (l_2 p). intros. ring.
  - exists (ln (l_0 p)), (l_1 p), (l_2 p). intros. ring.
Qed.
Lemma from_plane_life m s0 s1 s2 (s : R * R) : dual_stress m = true -> log_life m (from_plane m s0 s1 s2) s = s0 + s1 * scale_1 m (fst s) + s2 * scale_2 m (snd s).
Proof. intros H. destruct m; try discriminate; cbn [log_life from_plane l_0 l_1 l_2]; cbv zeta; rewrite ?ln_exp; ring. Qed.
Lemma scale_1_inj m s t : 0 < s -> 0 < t -> scale_1 m s = scale_1 m t -> s = t.
Proof. intros Hs Ht. destruct m; cbn [scale_1]; intros E; try (now apply ln_inv); apply inv_inj; auto. Qed.
Lemma not_aligned_two m f : ~ aligned m f -> exists i j, In i f /\ In j f /\ scale_1 m (fst (snd i)) <> scale_1 m (fst (snd j)).
Proof.
  intros H. destruct f as [|i f]; [exfalso; apply H; exists 1, 0, 0; split; [left; lra|intros ? []]|].
  set (g := fun j : R * (R * R) => scale_1 m (fst (snd j))). destruct (Exists_dec (fun j => g j <> g i) (i :: f)) as [E|N].
  - intros j. destruct (Req_EM_T (g j) (g i)); [right; auto|now left].
  - apply Exists_exists in E. destruct E as (j & Hj & E). exists j, i. split; [exact Hj|]. split; [now left|exact E].
  - exfalso. apply H. exists 1, 0, (g i). split; [left; lra|]. intros j Hj. destruct (Req_EM_T (g j) (g i)) as [E|E]; [unfold g in *; rewrite E; ring|]. exfalso. apply N. apply Exists_exists. eauto.
Qed.
Lemma not_aligned_det m f : ~ aligned m f -> det3 (fun i => scale_1 m (fst (snd i))) (fun i : R * (R * R) => scale_2 m (snd (snd i))) f <> 0.
Proof. intros H E. apply H. apply (det3_zero _ _ f (not_aligned_two m f H) E). Qed.
Lemma aligned_det m f : aligned m f -> det3 (fun i => scale_1 m (fst (snd i))) (fun i : R * (R * R) => scale_2 m (snd (snd i))) f = 0.
Proof.
  intros (a & b & c & H & HL). set (x := fun i : R * (R * R) => scale_1 m (fst (snd i))) in *. set (y := fun i : R * (R * R) => scale_2 m (snd (snd i))) in *.
  assert (forall g : R * (R * R) -> R, a * sm (fun i => g i * x i) f + b * sm (fun i => g i * y i) f = c * sm g f) as K.
  { intros g. induction f as [|i f IH]; [unfold sm; cbn; ring|]. rewrite !sm_cons. specialize (IH (fun j Hj => HL j (or_intror Hj))). pose proof (HL i (or_introl eq_refl)) as E. fold (x i) (y i) in E.
    replace (c * (g i + sm g f)) with (g i * (a * x i + b * y i) + c * sm g f) by (rewrite E; ring). rewrite <- IH. ring. }
  pose proof (K (fun _ => 1)) as K1. pose proof (K x) as K2. pose proof (K y) as K3. cbv beta in *.
  assert (sm (fun i => 1 * x i) f = sm x f) as E1 by (apply rsum_ext; intros; ring). assert (sm (fun i => 1 * y i) f = sm y f) as E2 by (apply rsum_ext; intros; ring).
  assert (sm (fun _ : R * (R * R) => 1) f = Sn f) as E3 by (unfold sm, Sn; rewrite rsum_const; ring).
  assert (sm (fun i => y i * x i) f = sm (fun i => x i * y i) f) as E4 by (apply rsum_ext; intros; ring).
  rewrite E1, E2, E3 in K1. rewrite E4 in K3. unfold det3. cbv zeta.
  set (n := Sn f) in *. set (sx := sm x f) in *. set (sy := sm y f) in *. set (sxx := sm (fun i => x i * x i) f) in *. set (sxy := sm (fun i => x i * y i) f) in *. set (syy := sm (fun i => y i * y i) f) in *.
  set (D := n * (sxx * syy - sxy * sxy) - sx * (sx * syy - sxy * sy) + sy * (sx * sxy - sxx * sy)).
  assert (a * D = 0) as A0.
  { replace (a * D) with (- ((sx * syy - sxy * sy)) * (a * sx + b * sy - c * n) + (n * syy - sy * sy) * (a * sxx + b * sxy - c * sx) - (n * sxy - sx * sy) * (a * sxy + b * syy - c * sy)) by (unfold D; ring).
    rewrite K1, K2, K3. ring. }
  assert (b * D = 0) as B0.
  { replace (b * D) with ((sx * sxy - sxx * sy) * (a * sx + b * sy - c * n) - (n * sxy - sx * sy) * (a * sxx + b * sxy - c * sx) + (n * sxx - sx * sx) * (a * sxy + b * syy - c * sy)) by (unfold D; ring).
    rewrite K1, K2, K3. ring. }
  apply Rmult_integral in A0, B0. tauto.
Qed.
(** Back and forth. *)
Definition line_of (m : ls_model) (p : ls_params) : R * R :=
  match m with LS_Eyring => (l_0 p, - l_1 p) | LS_Power => (l_1 p, ln (l_0 p)) | _ => (l_0 p, ln (l_1 p)) end.
Definition plane_of (m : ls_model) (p : ls_params) : R * R * R :=
  match m with LS_Dual_Exponential => (ln (l_2 p), l_0 p, l_1 p) | LS_Power_Exponential => (ln (l_1 p), l_0 p, l_2 p) | _ => (ln (l_0 p), l_1 p, l_2 p) end.
Lemma line_of_height m p i : dual_stress m = false -> ln (fst i) = log_life m p (snd i) -> height m i = fst (line_of m p) * scale_1 m (fst (snd i)) + snd (line_of m p).
Proof. intros H E. destruct m; try discriminate; cbn [log_life height line_of fst snd] in *; cbv zeta in *; rewrite E; ring. Qed.
Lemma plane_of_life m p (s : R * R) : dual_stress m = true -> log_life m p s = fst (fst (plane_of m p)) + snd (fst (plane_of m p)) * scale_1 m (fst s) + snd (plane_of m p) * scale_2 m (snd s).
Proof. intros H. destruct m; try discriminate; cbn [log_life plane_of fst snd]; cbv zeta; ring. Qed.
Lemma from_line_of m p : dual_stress m = false -> scale_ok m p -> named m (from_line m (fst (line_of m p)) (snd (line_of m p))) = named m p.
Proof. intros H Hs. destruct m; try discriminate; cbn [named from_line line_of fst snd l_0 l_1 scale_ok] in *; rewrite ?exp_ln, ?Ropp_involutive by exact Hs; reflexivity. Qed.
Lemma from_plane_of m p : dual_stress m = true -> scale_ok m p -> named m (from_plane m (fst (fst (plane_of m p))) (snd (fst (plane_of m p))) (snd (plane_of m p))) = named m p.
Proof. intros H Hs. destruct m; try discriminate; cbn [named from_plane plane_of fst snd l_0 l_1 l_2 scale_ok] in *; rewrite ?exp_ln by exact Hs; reflexivity. Qed.
