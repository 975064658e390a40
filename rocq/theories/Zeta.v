(** The sums of 1/n^2 and 1/n^4, from the integrals of powers of the cosine. *)
From Coquelicot Require Import Coquelicot.
From Coq Require Import Arith Reals Lra Lia.
From Verif Require Import RealFacts.
Open Scope R_scope.

Definition hp (i n : nat) : R := sum_f_R0 (fun k => 1 / INR (S k) ^ i) n.
Lemma hp_S i n : hp i (S n) = hp i n + 1 / INR (S (S n)) ^ i.
Proof. unfold hp. now rewrite tech5. Qed.
Lemma hp_0 i : hp i 0 = 1.
Proof. unfold hp. simpl. rewrite pow1. field. Qed.

Definition cp (n : nat) (x : R) : R := cos x ^ (2 * n).
Lemma cp_S n x : cp (S n) x = cos x * cos x * cp n x.
Proof. unfold cp. replace (2 * S n)%nat with (S (S (2 * n))) by lia. simpl. ring. Qed.
Definition W (m n : nat) : R := RInt (fun x => x ^ m * cp n x) 0 (PI / 2).
Lemma w_cont m n x : continuous (fun x => x ^ m * cp n x) x.
Proof. apply (ex_derive_continuous (fun x => x ^ m * cp n x)). unfold cp. auto_derive. exact I. Qed.
Lemma w_ex m n a b : ex_RInt (fun x => x ^ m * cp n x) a b.
Proof. apply (ex_RInt_continuous (V := R_CompleteNormedModule)). intros; apply w_cont. Qed.
Lemma w_is m n : is_RInt (fun x => x ^ m * cp n x) 0 (PI / 2) (W m n).
Proof. apply (@RInt_correct R_CompleteNormedModule), w_ex. Qed.
Lemma cp_pos n x : 0 <= x <= PI / 2 -> 0 <= cp n x.
Proof. intros Hx. apply pow_le, cos_ge_0; lra. Qed.

(** The derivative of [cp]. *)
Definition cd (n : nat) (x : R) : R := - (2 * INR (S n)) * sin x * cos x * cp n x.
Lemma cp_derive n (x : R) : is_derive (cp (S n)) x (cd n x).
Proof.
  unfold cp, cd. replace (2 * S n)%nat with (S (S (2 * n))) by lia. auto_derive; [exact I|].
  cbn [pred pow]. change (n + (n + 0))%nat with (2 * n)%nat. set (q := cos x ^ (2 * n)). change (cp n x) with q.
  replace (match (2 * n)%nat with 0%nat => 1 | S _ => INR (2 * n) + 1 end) with (INR (2 * n) + 1) by (destruct (2 * n)%nat; simpl; ring).
  rewrite mult_INR, (S_INR n). simpl (INR 2). as_R. ring.
Qed.
Lemma cd_derive n (x : R) : is_derive (cd n) x ((2 * INR (S n)) * (2 * INR (S n) - 1) * cp n x - (2 * INR (S n)) * (2 * INR (S n)) * cp (S n) x).
Proof.
  set (k := 2 * INR (S n)). assert (k = 2 * INR (S n)) as Ek by reflexivity. clearbody k. rewrite cp_S. destruct n as [|n].
  - unfold cd, cp. simpl in Ek. simpl. auto_derive; [exact I|]. pose proof (sin2_cos2 x) as T. unfold Rsqr in T. rewrite Ek. nra.
  - assert (is_derive (fun x => - (2 * INR (S (S n))) * (sin x * cos x) * cp (S n) x) x
      (- (2 * INR (S (S n))) * (cos x * cos x - sin x * sin x) * cp (S n) x + (- (2 * INR (S (S n))) * (sin x * cos x)) * cd n x)) as D.
    { apply (is_derive_mult (fun x => - (2 * INR (S (S n))) * (sin x * cos x)) (cp (S n))); [|apply cp_derive|intros; apply Rmult_comm].
      set (q := INR (S (S n))). auto_derive; [exact I|]. ring. }
    apply (is_derive_ext (fun x => - (2 * INR (S (S n))) * (sin x * cos x) * cp (S n) x)); [intros t; unfold cd; as_R; ring|].
    match type of D with is_derive _ _ ?l => match goal with |- is_derive _ _ ?r => replace r with l; [exact D|] end end.
    rewrite cp_S. unfold cd. pose proof (sin2_cos2 x) as T. unfold Rsqr in T. rewrite S_INR in Ek. rewrite (S_INR (S n)). set (q := cp n x). set (c := cos x) in *. set (s := sin x) in *. set (r := INR (S n)) in *.
    replace (s * s) with (1 - c * c) by lra. replace (- (2 * (r + 1)) * (s * c) * (- (2 * r) * s * c * q)) with (4 * r * (r + 1) * (s * s) * (c * c) * q) by ring.
    replace (s * s) with (1 - c * c) by lra. rewrite Ek. ring.
Qed.

(** Integrating by parts twice against f. *)
Lemma parts f f' f'' n X Y Z : (forall x, is_derive f x (f' x)) -> (forall x, is_derive f' x (f'' x)) ->
  (forall x, continuous f'' x) ->
  f' 0 = 0 ->
  is_RInt (fun x => f x * cp n x) 0 (PI / 2) X -> is_RInt (fun x => f x * cp (S n) x) 0 (PI / 2) Y -> is_RInt (fun x => f'' x * cp (S n) x) 0 (PI / 2) Z ->
  (2 * INR (S n)) * (2 * INR (S n) - 1) * X - (2 * INR (S n)) * (2 * INR (S n)) * Y = Z.
Proof.
  intros D1 D2 C Z0 HX HY HZ. set (k := 2 * INR (S n)).
  set (F := fun x => f x * cd n x - f' x * cp (S n) x).
  set (h := fun x => f x * (k * (k - 1) * cp n x - k * k * cp (S n) x) - f'' x * cp (S n) x).
  assert (forall x, is_derive F x (h x)) as DF.
  { intros x. unfold F, h. pose proof (is_derive_mult f (cd n) x _ _ (D1 x) (cd_derive n x) ltac:(intros; apply Rmult_comm)) as A.
    pose proof (is_derive_mult f' (cp (S n)) x _ _ (D2 x) (cp_derive n x) ltac:(intros; apply Rmult_comm)) as B.
    pose proof (is_derive_minus _ _ x _ _ A B) as M. match type of M with is_derive _ _ ?l => match goal with |- is_derive _ _ ?r => replace r with l; [exact M|] end end.
    fold k. unfold minus, plus, opp, mult; simpl. unfold mult; simpl. ring. }
  assert (forall m x, continuous (cp m) x) as CC by (intros m x; apply (ex_derive_continuous (cp m)); unfold cp; auto_derive; exact I).
  assert (forall x, continuous h x) as CH.
  { intros x. unfold h. apply (continuous_minus (fun x => f x * (k * (k - 1) * cp n x - k * k * cp (S n) x)) (fun x => f'' x * cp (S n) x)).
    - apply (continuous_mult f (fun x => k * (k - 1) * cp n x - k * k * cp (S n) x)); [apply (ex_derive_continuous f); eexists; apply D1|].
      apply (continuous_minus (fun x => k * (k - 1) * cp n x) (fun x => k * k * cp (S n) x)); [apply (continuous_scal_r (k * (k - 1)) (cp n))|apply (continuous_scal_r (k * k) (cp (S n)))]; apply CC.
    - apply (continuous_mult f'' (cp (S n))); [apply C|apply CC]. }
  pose proof (is_RInt_derive F h 0 (PI / 2) (fun x _ => DF x) (fun x _ => CH x)) as I1.
  assert (@minus R_AbelianGroup (F (PI / 2)) (F 0) = 0) as E0.
  { unfold F, cd. rewrite !cp_S, sin_0, cos_PI2, Z0. unfold minus, plus, opp; simpl. ring. }
  change (is_RInt h 0 (PI / 2) (@minus R_AbelianGroup (F (PI / 2)) (F 0))) in I1. rewrite E0 in I1.
  assert (is_RInt h 0 (PI / 2) (k * (k - 1) * X - k * k * Y - Z)) as I2.
  { pose proof (is_RInt_minus _ _ _ _ _ _ (is_RInt_minus _ _ _ _ _ _ (is_RInt_scal _ _ _ (k * (k - 1)) _ HX) (is_RInt_scal _ _ _ (k * k) _ HY)) HZ) as M.
    revert M. apply is_RInt_ext. intros x _. unfold h, minus, plus, opp, scal; simpl. unfold mult; simpl. ring. }
  pose proof (is_RInt_unique _ _ _ _ I1) as U1. rewrite (is_RInt_unique _ _ _ _ I2) in U1. lra.
Qed.

Lemma pow0_is n : is_RInt (fun x => 1 * cp n x) 0 (PI / 2) (W 0 n).
Proof. apply (is_RInt_ext (fun x => x ^ 0 * cp n x)); [intros; simpl; reflexivity|apply w_is]. Qed.
Lemma W0_rec n : (2 * INR (S n)) * (2 * INR (S n) - 1) * W 0 n = (2 * INR (S n)) * (2 * INR (S n)) * W 0 (S n).
Proof.
  assert (is_RInt (fun x => 0 * cp (S n) x) 0 (PI / 2) 0) as Z.
  { apply (is_RInt_ext (fun _ => 0)); [intros; symmetry; apply Rmult_0_l|]. pose proof (is_RInt_const (V := R_NormedModule) 0 (PI / 2) 0) as K. unfold scal in K; simpl in K. unfold mult in K; simpl in K. now rewrite Rmult_0_r in K. }
  pose proof (parts (fun _ => 1) (fun _ => 0) (fun _ => 0) n (W 0 n) (W 0 (S n)) 0 (is_derive_const 1) (is_derive_const 0) ltac:(intros; apply continuous_const) eq_refl (pow0_is n) (pow0_is (S n)) Z) as P. lra.
Qed.
Lemma W2_rec n : (2 * INR (S n)) * (2 * INR (S n) - 1) * W 2 n - (2 * INR (S n)) * (2 * INR (S n)) * W 2 (S n) = 2 * W 0 (S n).
Proof.
  refine (parts (fun x => x ^ 2) (fun x => 2 * x) (fun _ => 2) n (W 2 n) (W 2 (S n)) (2 * W 0 (S n)) _ _ _ _ (w_is 2 n) (w_is 2 (S n)) _).
  - intros x. auto_derive; [exact I|]. ring.
  - intros x. auto_derive; [exact I|]. ring.
  - intros x. apply continuous_const.
  - apply Rmult_0_r.
  - apply (is_RInt_ext (fun x => 2 * (1 * cp (S n) x))); [intros x _; now rewrite Rmult_1_l|]. exact (is_RInt_scal (fun x => 1 * cp (S n) x) 0 (PI / 2) 2 _ (pow0_is (S n))).
Qed.
Lemma W4_rec n : (2 * INR (S n)) * (2 * INR (S n) - 1) * W 4 n - (2 * INR (S n)) * (2 * INR (S n)) * W 4 (S n) = 12 * W 2 (S n).
Proof.
  refine (parts (fun x => x ^ 4) (fun x => 4 * x ^ 3) (fun x => 12 * x ^ 2) n (W 4 n) (W 4 (S n)) (12 * W 2 (S n)) _ _ _ _ (w_is 4 n) (w_is 4 (S n)) _).
  - intros x. auto_derive; [exact I|]. ring.
  - intros x. auto_derive; [exact I|]. ring.
  - intros x. apply (ex_derive_continuous (fun x => 12 * x ^ 2)). auto_derive. exact I.
  - as_R. ring.
  - apply (is_RInt_ext (fun x => 12 * (x ^ 2 * cp (S n) x))); [intros x _; symmetry; apply Rmult_assoc|]. exact (is_RInt_scal (fun x => x ^ 2 * cp (S n) x) 0 (PI / 2) 12 _ (w_is 2 (S n))).
Qed.

Lemma W_start m : W m 0 = (PI / 2) ^ S m / INR (S m).
Proof.
  unfold W. apply is_RInt_unique. assert (INR (S m) <> 0) as NZ by (apply not_0_INR; lia).
  replace ((PI / 2) ^ S m / INR (S m)) with (minus ((PI / 2) ^ S m / INR (S m)) (0 ^ S m / INR (S m))) by (unfold minus, plus, opp; simpl; field; exact NZ).
  apply (is_RInt_derive (fun x => x ^ S m / INR (S m)) (fun x => x ^ m * cp 0 x)); intros x _.
  - unfold cp. auto_derive; [exact I|]. cbn [pred]. change (match m with O => 1 | S _ => INR m + 1 end) with (INR (S m)). replace (cos x ^ (2 * 0)) with 1 by reflexivity. set (q := INR (S m)) in *. field. exact NZ.
  - apply w_cont.
Qed.
Lemma W0_pos n : 0 < W 0 n.
Proof.
  induction n as [|n IH].
  - rewrite W_start. pose proof PI_RGT_0. simpl. lra.
  - pose proof (W0_rec n) as K. assert (1 <= INR (S n)) as N by (apply (le_INR 1); lia). set (k := INR (S n)) in *.
    assert (0 < 2 * k * (2 * k - 1) * W 0 n) by (apply Rmult_lt_0_compat; [nra|assumption]). rewrite K in H. apply (Rmult_lt_reg_l (2 * k * (2 * k))); [nra|]. lra.
Qed.

(** x cos x <= sin x on the quarter circle. *)
Lemma xcos_sin x : 0 <= x <= PI / 2 -> x * cos x <= sin x.
Proof.
  intros Hx. assert (0 <= sin x - x * cos x); [|lra].
  destruct (MVT_gen (fun x => sin x - x * cos x) 0 x (fun x => x * sin x)) as (c & Hc & E).
  - intros t _. auto_derive; [exact I|]. ring.
  - intros t _. apply continuity_pt_filterlim. apply (ex_derive_continuous (fun x => sin x - x * cos x)). auto_derive. exact I.
  - rewrite Rmin_left, Rmax_right in Hc by lra. simpl in E. rewrite sin_0 in E. replace (sin x - x * cos x) with (c * sin c * (x - 0)) by lra.
    apply Rmult_le_pos; [apply Rmult_le_pos; [lra|]|lra]. apply sin_ge_0; pose proof PI_RGT_0; lra.
Qed.
Lemma W_le m m' n : (forall x, 0 <= x <= PI / 2 -> m x <= m' x) -> forall v v', is_RInt (fun x => m x * cp n x) 0 (PI / 2) v -> is_RInt (fun x => m' x * cp n x) 0 (PI / 2) v' -> v <= v'.
Proof.
  intros L v v' H H'. pose proof PI_RGT_0. apply (is_RInt_le (fun x => m x * cp n x) (fun x => m' x * cp n x) 0 (PI / 2)); try assumption; [lra|].
  intros x Hx. apply Rmult_le_compat_r; [apply cp_pos; lra|apply L; lra].
Qed.
Lemma W_nonneg m n : 0 <= W m n.
Proof.
  assert (is_RInt (fun x => 0 * cp n x) 0 (PI / 2) 0) as Z.
  { apply (is_RInt_ext (fun _ => 0)); [intros; symmetry; apply Rmult_0_l|]. pose proof (is_RInt_const (V := R_NormedModule) 0 (PI / 2) 0) as K. unfold scal in K; simpl in K. unfold mult in K; simpl in K. now rewrite Rmult_0_r in K. }
  apply (W_le (fun _ => 0) (fun x => x ^ m) n) with (2 := Z) (3 := w_is m n). intros x Hx. apply pow_le; lra.
Qed.
Lemma W2_small n : W 2 (S n) <= W 0 n - W 0 (S n).
Proof.
  pose proof PI_RGT_0. apply (is_RInt_le (fun x => x ^ 2 * cp (S n) x) (fun x => minus (1 * cp n x) (1 * cp (S n) x)) 0 (PI / 2)); [lra|apply w_is| |].
  - exact (is_RInt_minus _ _ _ _ _ _ (pow0_is n) (pow0_is (S n))).
  - intros x Hx. rewrite cp_S. unfold minus, plus, opp; simpl. pose proof (xcos_sin x ltac:(lra)) as L. pose proof (cp_pos n x ltac:(lra)) as P. pose proof (sin2_cos2 x) as T. unfold Rsqr in T.
    assert (0 <= cos x) by (apply cos_ge_0; lra). set (s := sin x) in *. set (c := cos x) in *. assert (x * c * (x * c) <= s * s) by (apply Rmult_le_compat; nra).
    replace (x * (x * 1) * (c * c * cp n x)) with (x * c * (x * c) * cp n x) by ring. replace (1 * cp n x + - (1 * (c * c * cp n x))) with ((1 - c * c) * cp n x) by ring. apply Rmult_le_compat_r; lra.
Qed.
Lemma W4_small n : W 4 n <= (PI / 2) ^ 2 * W 2 n.
Proof.
  apply (W_le (fun x => x ^ 4) (fun x => (PI / 2) ^ 2 * x ^ 2) n); [|apply w_is|].
  - intros x Hx. replace (x ^ 4) with (x ^ 2 * x ^ 2) by ring. apply Rmult_le_compat_r; [apply pow2_ge_0|]. apply pow_incr. lra.
  - apply (is_RInt_ext (fun x => (PI / 2) ^ 2 * (x ^ 2 * cp n x))); [intros x _; symmetry; apply Rmult_assoc|]. exact (is_RInt_scal (fun x => x ^ 2 * cp n x) 0 (PI / 2) ((PI / 2) ^ 2) _ (w_is 2 n)).
Qed.

(** The ratios. *)
Definition jr (n : nat) : R := W 2 n / W 0 n.
Definition kr (n : nat) : R := W 4 n / W 0 n.
Lemma jr_rec n : jr n - jr (S n) = 1 / 2 * (1 / INR (S n) ^ 2).
Proof.
  unfold jr. pose proof (W0_pos n) as P. pose proof (W0_pos (S n)) as P'. pose proof (W0_rec n) as E. pose proof (W2_rec n) as F. assert (1 <= INR (S n)) as N by (apply (le_INR 1); lia). set (k := INR (S n)) in *.
  assert (W 0 n = 2 * k / (2 * k - 1) * W 0 (S n)) as E' by (apply (Rmult_eq_reg_l (2 * k * (2 * k - 1))); [rewrite E; field; lra|nra]).
  assert (W 2 n = (2 * W 0 (S n) + 2 * k * (2 * k) * W 2 (S n)) / (2 * k * (2 * k - 1))) as F'.
  { apply (Rmult_eq_reg_l (2 * k * (2 * k - 1))); [|nra]. replace (2 * k * (2 * k - 1) * ((2 * W 0 (S n) + 2 * k * (2 * k) * W 2 (S n)) / (2 * k * (2 * k - 1)))) with (2 * W 0 (S n) + 2 * k * (2 * k) * W 2 (S n)) by (field; lra). lra. }
  rewrite E', F'. field. lra.
Qed.
Lemma kr_rec n : kr n - kr (S n) = 3 * jr (S n) / INR (S n) ^ 2.
Proof.
  unfold kr, jr. pose proof (W0_pos n) as P. pose proof (W0_pos (S n)) as P'. pose proof (W0_rec n) as E. pose proof (W4_rec n) as F. assert (1 <= INR (S n)) as N by (apply (le_INR 1); lia). set (k := INR (S n)) in *.
  assert (W 0 n = 2 * k / (2 * k - 1) * W 0 (S n)) as E' by (apply (Rmult_eq_reg_l (2 * k * (2 * k - 1))); [rewrite E; field; lra|nra]).
  assert (W 4 n = (12 * W 2 (S n) + 2 * k * (2 * k) * W 4 (S n)) / (2 * k * (2 * k - 1))) as F'.
  { apply (Rmult_eq_reg_l (2 * k * (2 * k - 1))); [|nra]. replace (2 * k * (2 * k - 1) * ((12 * W 2 (S n) + 2 * k * (2 * k) * W 4 (S n)) / (2 * k * (2 * k - 1)))) with (12 * W 2 (S n) + 2 * k * (2 * k) * W 4 (S n)) by (field; lra). lra. }
  rewrite E', F'. field. lra.
Qed.
Lemma jr_small n : 0 <= jr (S n) <= / INR (S n).
Proof.
  pose proof (W0_pos (S n)) as P. split; [apply Rdiv_le_0_compat; [apply W_nonneg|assumption]|]. pose proof (W2_small n) as L. pose proof (W0_rec n) as E. assert (1 <= INR (S n)) as N by (apply (le_INR 1); lia).
  unfold jr. set (k := INR (S n)) in *. apply (Rmult_le_reg_r (W 0 (S n))); [assumption|]. replace (W 2 (S n) / W 0 (S n) * W 0 (S n)) with (W 2 (S n)) by (field; lra).
  apply Rle_trans with (1 := L). assert (W 0 n = 2 * k / (2 * k - 1) * W 0 (S n)) as E' by (apply (Rmult_eq_reg_l (2 * k * (2 * k - 1))); [rewrite E; field; lra|nra]).
  rewrite E'. replace (2 * k / (2 * k - 1) * W 0 (S n) - W 0 (S n)) with (/ (2 * k - 1) * W 0 (S n)) by (field; lra). apply Rmult_le_compat_r; [lra|]. apply Rinv_le_contravar; lra.
Qed.
Lemma kr_small n : 0 <= kr (S n) <= (PI / 2) ^ 2 * / INR (S n).
Proof.
  pose proof (W0_pos (S n)) as P. split; [apply Rdiv_le_0_compat; [apply W_nonneg|assumption]|]. apply Rle_trans with ((PI / 2) ^ 2 * jr (S n)); [|apply Rmult_le_compat_l; [apply pow2_ge_0|apply jr_small]].
  unfold kr, jr. replace ((PI / 2) ^ 2 * (W 2 (S n) / W 0 (S n))) with ((PI / 2) ^ 2 * W 2 (S n) / W 0 (S n)) by (field; lra). apply Rmult_le_compat_r; [left; now apply Rinv_0_lt_compat|]. apply W4_small.
Qed.
Lemma jr_sum n : jr 0 - jr (S n) = 1 / 2 * hp 2 n.
Proof.
  induction n as [|n IH]; [rewrite jr_rec, hp_0; simpl; field|]. rewrite hp_S. pose proof (jr_rec (S n)). lra.
Qed.
Lemma inv_lim c : is_lim_seq (fun n => c * / INR (S n)) 0.
Proof.
  replace (Finite 0) with (Finite (c * 0)) by (f_equal; ring). apply (is_lim_seq_mult' (fun _ => c)); [apply is_lim_seq_const|].
  apply is_lim_seq_spec. intros eps. destruct (archimed_cor1 eps (cond_pos eps)) as (m & Hm & Pm). exists m. intros n Hn. apply le_INR in Hn. assert (0 < INR m) by now apply lt_0_INR. rewrite S_INR.
  rewrite Rminus_0_r, Rabs_right by (left; apply Rinv_0_lt_compat; lra). apply Rle_lt_trans with (/ INR m); [apply Rinv_le_contravar; lra|assumption].
Qed.
Lemma jr_lim : is_lim_seq (fun n => jr (S n)) 0.
Proof. apply (is_lim_seq_le_le (fun _ => 0) _ (fun n => 1 * / INR (S n))); [|apply is_lim_seq_const|apply inv_lim]. intros n. rewrite Rmult_1_l. apply jr_small. Qed.
Lemma kr_lim : is_lim_seq (fun n => kr (S n)) 0.
Proof. apply (is_lim_seq_le_le (fun _ => 0) _ (fun n => (PI / 2) ^ 2 * / INR (S n))); [|apply is_lim_seq_const|apply inv_lim]. intros n. apply kr_small. Qed.
Lemma jr_0 : jr 0 = PI * PI / 12.
Proof. unfold jr. rewrite !W_start. simpl. pose proof PI_RGT_0. field. lra. Qed.
Lemma kr_0 : kr 0 = PI ^ 4 / 80.
Proof. unfold kr. rewrite !W_start. simpl. pose proof PI_RGT_0. field. lra. Qed.

Theorem zeta2 : is_lim_seq (hp 2) (PI * PI / 6).
Proof.
  apply (is_lim_seq_ext (fun n => 2 * (PI * PI / 12 - jr (S n)))); [intros n; rewrite <- jr_0, jr_sum; as_R; field|].
  replace (Finite (PI * PI / 6)) with (Finite (2 * (PI * PI / 12 - 0))) by (f_equal; field).
  apply (is_lim_seq_mult' (fun _ => 2)); [apply is_lim_seq_const|]. apply (is_lim_seq_minus' (fun _ => PI * PI / 12)); [apply is_lim_seq_const|exact jr_lim].
Qed.
Lemma kr_sum n : kr 0 - kr (S n) = 3 * (jr 0 * hp 2 n - 1 / 4 * (hp 2 n * hp 2 n + hp 4 n)).
Proof.
  induction n as [|n IH].
  - rewrite kr_rec. pose proof (jr_sum 0) as K. rewrite !hp_0 in *. replace (jr 1) with (jr 0 - 1 / 2) by lra. simpl. field.
  - pose proof (kr_rec (S n)) as K. pose proof (jr_sum (S n)) as J. replace (jr (S (S n))) with (jr 0 - 1 / 2 * hp 2 (S n)) in K by lra. rewrite !hp_S in *.
    assert (INR (S (S n)) <> 0) as NZ by (apply not_0_INR; lia). set (k := INR (S (S n))) in *. replace (kr 0 - kr (S (S n))) with (kr 0 - kr (S n) + (kr (S n) - kr (S (S n)))) by ring. rewrite IH, K. field. exact NZ.
Qed.
Theorem zeta4 : is_lim_seq (hp 4) (PI ^ 4 / 90).
Proof.
  apply (is_lim_seq_ext (fun n => 4 * (PI * PI / 12 * hp 2 n) - hp 2 n * hp 2 n - 4 / 3 * (PI ^ 4 / 80 - kr (S n)))).
  { intros n. rewrite <- kr_0, kr_sum, jr_0. as_R. field. }
  replace (Finite (PI ^ 4 / 90)) with (Finite (4 * (PI * PI / 12 * (PI * PI / 6)) - (PI * PI / 6) * (PI * PI / 6) - 4 / 3 * (PI ^ 4 / 80 - 0))) by (f_equal; field).
  apply is_lim_seq_minus'; [apply is_lim_seq_minus'|].
  - apply (is_lim_seq_mult' (fun _ => 4)); [apply is_lim_seq_const|]. apply (is_lim_seq_mult' (fun _ => PI * PI / 12)); [apply is_lim_seq_const|exact zeta2].
  - apply is_lim_seq_mult'; exact zeta2.
  - apply (is_lim_seq_mult' (fun _ => 4 / 3)); [apply is_lim_seq_const|]. apply (is_lim_seq_minus' (fun _ => PI ^ 4 / 80)); [apply is_lim_seq_const|exact kr_lim].
Qed.
