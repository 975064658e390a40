(** Facts about the confidence bands of fitted distributions (C168). *)
From Coquelicot Require Import Coquelicot.
From Coq Require Import String.
From Coq Require Import List Arith Reals Lra Lia Bool ZArith Sorted.
From Verif Require Import Base RealFacts Gauss Ext RList ConvertModel RepairModel DistModel DistSpec DistProofs DistProofs2 CombProofs CIModel CISpec CIProofs CIProofs2 PlotModel PlotSpec PlotProofs PlotProofs2 PlotProps BandModel BandSpec BandProps BandProps2 FitBandModel FitBandSpec.
Import ListNotations.
Open Scope R_scope.

(** ** Rows *)
(** The rows that are left of an array of points and their limits. *)
Fixpoint rows {A} (F : A -> option (R * R)) (ok : A -> R -> R -> bool) (l : list A) : list (A * R * R) :=
  match l with [] => [] | a :: r => match F a with Some (x, y) => if ok a x y then (a, x, y) :: rows F ok r else rows F ok r | None => rows F ok r end end.
Lemma rows_in {A} (F : A -> option (R * R)) ok l a x y : In (a, x, y) (rows F ok l) <-> In a l /\ F a = Some (x, y) /\ ok a x y = true.
Proof.
  induction l as [|b l IH]; cbn [rows]; [cbn; tauto|]. destruct (F b) as [[u v]|] eqn:E; [destruct (ok b u v) eqn:O|]; cbn [In]; rewrite ?IH; split; intuition (try congruence; subst; auto).
Qed.
Lemma time_rows (F : R -> option (R * R)) pt Y :
  clean_CI_arrays (map (omap fst) (map F Y)) (map (omap snd) (map F Y)) (map Some Y) (map Some Y) pt false false =
  let rs := rows F (fun y a b => row_ok pt (a, b, y, y)) Y in
  Ok (map (fun r => snd (fst r)) rs, map snd rs, map (fun r => fst (fst r)) rs, map (fun r => fst (fst r)) rs).
Proof.
  assert (keep_finite (map (omap fst) (map F Y)) (map (omap snd) (map F Y)) (map Some Y) (map Some Y) = Ok (map (fun r => (snd (fst r), snd r, fst (fst r), fst (fst r))) (rows F (fun _ _ _ => true) Y))) as K.
  { induction Y as [|y Y IH]; [reflexivity|]. cbn [map keep_finite rows]. destruct (F y) as [[a b]|]; cbn [omap fst snd read bind tl map]; rewrite IH; reflexivity. }
  rewrite (clean_rows pt _ _ _ _ false false _ K). cbv zeta. rewrite !andb_false_r.
  assert (filter (row_ok pt) (map (fun r => (snd (fst r), snd r, fst (fst r), fst (fst r))) (rows F (fun _ _ _ => true) Y)) = map (fun r => (snd (fst r), snd r, fst (fst r), fst (fst r))) (rows F (fun y a b => row_ok pt (a, b, y, y)) Y)) as ->.
  { clear K. induction Y as [|y Y IH]; [reflexivity|]. cbn [rows]. destruct (F y) as [[a b]|]; [|exact IH]. cbn [map filter fst snd]. destruct (row_ok pt (a, b, y, y)); cbn [map fst snd]; now rewrite IH. }
  rewrite !map_map. reflexivity.
Qed.
Lemma rel_rows (F : R -> option (R * R)) pt t :
  clean_CI_arrays (map Some t) (map Some t) (map (omap fst) (map F t)) (map (omap snd) (map F t)) pt false false =
  let rs := rows F (fun y a b => row_ok pt (y, y, a, b)) t in
  Ok (map (fun r => fst (fst r)) rs, map (fun r => fst (fst r)) rs, map (fun r => snd (fst r)) rs, map snd rs).
Proof.
  assert (keep_finite (map Some t) (map Some t) (map (omap fst) (map F t)) (map (omap snd) (map F t)) = Ok (map (fun r => (fst (fst r), fst (fst r), snd (fst r), snd r)) (rows F (fun _ _ _ => true) t))) as K.
  { induction t as [|y t IH]; [reflexivity|]. cbn [map keep_finite rows]. destruct (F y) as [[a b]|]; cbn [omap fst snd read bind tl map]; rewrite IH; reflexivity. }
  rewrite (clean_rows pt _ _ _ _ false false _ K). cbv zeta. rewrite !andb_false_r.
  assert (filter (row_ok pt) (map (fun r => (fst (fst r), fst (fst r), snd (fst r), snd r)) (rows F (fun _ _ _ => true) t)) = map (fun r => (fst (fst r), fst (fst r), snd (fst r), snd r)) (rows F (fun y a b => row_ok pt (y, y, a, b)) t)) as ->.
  { clear K. induction t as [|y t IH]; [reflexivity|]. cbn [rows]. destruct (F y) as [[a b]|]; [|exact IH]. cbn [map filter fst snd]. destruct (row_ok pt (y, y, a, b)); cbn [map fst snd]; now rewrite IH. }
  rewrite !map_map. reflexivity.
Qed.
Lemma rows_sorted (R' : R -> R -> Prop) F ok l : StronglySorted R' l -> StronglySorted R' (map (fun r => fst (fst r)) (rows F ok l)).
Proof.
  induction 1 as [|a l S IH Fa]; cbn [rows]; [constructor|]. destruct (F a) as [[x y]|]; [destruct (ok a x y)|]; cbn [map fst]; try exact IH. constructor; [exact IH|].
  rewrite Forall_forall in *. intros b Hb. apply in_map_iff in Hb as ([[c u] v] & <- & Hc). apply rows_in in Hc. apply Fa. tauto.
Qed.

(** ** Corrections of reversals *)
Lemma drawn_refl down l : drawn_limit down l l.
Proof. split; [reflexivity|]. split; [reflexivity|]. now left. Qed.
Lemma drawn_no_reverse down l : drawn_limit down l (no_reverse_finite down l).
Proof.
  split; [apply no_reverse_length|]. split.
  - intros H. destruct down; [apply no_reverse_decreasing|apply no_reverse_increasing]; intros i j Hij; exact (H i j Hij).
  - destruct l as [|a l]; [left; destruct down; reflexivity|]. set (x := a :: l) in *. assert (x <> []) as Ne by discriminate. clearbody x. right.
    destruct (first_index_spec (extreme down x) x (extreme_in down x Ne)) as (F1 & F2 & _). exists (first_index (extreme down x) x). split; [exact F1|]. split; [|split].
    + intros i Hi. rewrite no_reverse_nth by lia. destruct (Nat.ltb_spec i (first_index (extreme down x) x)); [reflexivity|lia].
    + intros i Hi. rewrite no_reverse_nth by lia. destruct (Nat.ltb_spec i (first_index (extreme down x) x)); [lia|]. now rewrite F2.
    + intros v Hv. rewrite F2. now apply (extreme_best down x v).
Qed.
Lemma drawn_without down a b : let r := without_reversals down a b in drawn_limit down a (fst r) /\ drawn_limit down b (snd r).
Proof. unfold without_reversals. cbv zeta. destruct (_ && _); cbn [fst snd]; auto using drawn_no_reverse, drawn_refl. Qed.
Lemma drawn_map down down' (h : R -> R) l l' : (forall v, In v l -> 0 < v) -> (forall u v, 0 < u -> 0 < v -> (u <= v <-> if Bool.eqb down down' then h u <= h v else h v <= h u)) ->
  drawn_limit down l l' -> drawn_limit down' (map h l) (map h l').
Proof.
  intros Hp Hm (L & G & C). assert (forall m i, (i < length m)%nat -> nth i (map h m) 0 = h (nth i m 0)) as N. { intros m i Hi. rewrite (nth_indep _ 0 (h 0)) by now rewrite map_length. apply map_nth. }
  split; [now rewrite !map_length|]. split.
  { intros H. f_equal. apply G. intros i j Hij. specialize (H i j). rewrite map_length in H. specialize (H Hij). rewrite !N in H by lia. assert (0 < nth i l 0) by (apply Hp, nth_In; lia). assert (0 < nth j l 0) by (apply Hp, nth_In; lia).
    destruct down, down'; cbn [Bool.eqb] in Hm; [apply (Hm (nth j l 0) (nth i l 0))|apply (Hm (nth j l 0) (nth i l 0))|apply (Hm (nth i l 0) (nth j l 0))|apply (Hm (nth i l 0) (nth j l 0))]; assumption. }
  destruct C as [->|(k & Hk & A & B & D)]; [now left|]. right. exists k. rewrite map_length. split; [exact Hk|]. split; [|split].
  - intros i Hi. rewrite !N by lia. now rewrite A.
  - intros i Hi. rewrite !N by lia. now rewrite B.
  - intros v Hv. apply in_map_iff in Hv as (w & <- & Hw). rewrite N by assumption. specialize (D w Hw). assert (0 < nth k l 0) by (apply Hp, nth_In, Hk). specialize (Hp w Hw).
    destruct down, down'; cbn [Bool.eqb] in Hm; [apply (Hm (nth k l 0) w)|apply (Hm (nth k l 0) w)|apply (Hm w (nth k l 0))|apply (Hm w (nth k l 0))]; assumption.
Qed.
Lemma shown_order f u v : 0 < u -> 0 < v -> (u <= v <-> if Bool.eqb true (match f with F_SF => true | _ => false end) then shown_as f u <= shown_as f v else shown_as f v <= shown_as f u).
Proof.
  intros Hu Hv. destruct f; cbn [Bool.eqb shown_as]; [lra|lra|]. split; intros H; [assert (ln u <= ln v) by (apply ln_le; lra); lra|].
  apply Rnot_lt_le. intros C. pose proof (ln_increasing v u Hv C). lra.
Qed.
Lemma q_of_shown f y : 0 < y -> q_of f (shown_as f y) = y.
Proof. intros H. destruct f; cbn [q_of shown_as]; [ring|reflexivity|]. now rewrite Ropp_involutive, exp_ln. Qed.

(** ** The reliabilities drawn *)
Lemma increasing_sorted l : increasing l -> StronglySorted Rlt l.
Proof.
  induction l as [|a l IH]; intros H; constructor.
  - apply IH. intros i j Hij. apply (H (S i) (S j)). cbn [length]. lia.
  - rewrite Forall_forall. intros x Hx. apply (In_nth _ _ 0) in Hx as (j & Hj & <-). apply (H 0%nat (S j)). cbn [length]. lia.
Qed.
Lemma linspace_increasing a b n : a < b -> (2 <= n)%nat -> increasing (linspace a b n).
Proof.
  intros H Hn i j Hij. rewrite linspace_length in Hij. rewrite !linspace_nth by lia. assert (0 < INR (n - 1)) by (apply lt_0_INR; lia). assert (0 < (b - a) / INR (n - 1)) by (apply Rdiv_lt_0_compat; lra).
  destruct Hij as [Hij _]. apply lt_INR in Hij. nra.
Qed.
Lemma tiny8 : 0 < / 10 ^ 8 < / 2.
Proof. split; [apply Rinv_0_lt_compat, pow_lt; lra|]. apply Rinv_lt_contravar; lra. Qed.
Lemma in_increasing l x : increasing l -> In x l -> nth 0 l 0 <= x <= nth (length l - 1) l 0.
Proof.
  intros H Hx. apply (In_nth _ _ 0) in Hx as (i & Hi & <-). split.
  - destruct (Nat.eq_dec i 0) as [->|]; [lra|]. left. apply H. lia.
  - destruct (Nat.eq_dec i (length l - 1)) as [->|]; [lra|]. left. apply H. lia.
Qed.
(** For CDF and SF: 200 reliabilities from 1e-8 to 1 - 1e-8. For CHF: 200 hazards from 1e-8 to 1.5 times the last one drawn. *)
Lemma reliabilities_ok d f last : valid d -> two_parameters d -> (f = F_CHF -> / 10 ^ 8 < last * (3 / 2)) ->
  exists Y, band_reliabilities d f last = Ok Y /\ length Y = N.to_nat 200 /\ (forall y, In y Y -> 0 < y < 1) /\
    (f <> F_CHF -> increasing Y /\ nth 0 Y 0 = / 10 ^ 8 /\ nth 199 Y 0 = 1 - / 10 ^ 8) /\
    (f = F_CHF -> increasing (rev Y) /\ nth 0 Y 0 = exp (- / 10 ^ 8) /\ nth 199 Y 0 = exp (- (last * (3 / 2)))).
Proof.
  intros V T HC. pose proof tiny8 as T8. set (e8 := / 10 ^ 8) in *. assert (f = F_CHF \/ f <> F_CHF) as [Ef|Ef] by (destruct f; [right|right|left]; congruence).
  - specialize (HC Ef). subst f. cbn [band_reliabilities]. fold e8. set (g := geomspace e8 (last * (3 / 2)) 200).
    assert (StronglySorted Rlt g) as S by (apply geomspace_sorted; [lra|apply leb_complete; reflexivity]). assert (forall c, In c g -> 0 < c) as Pg by (intros c; apply geomspace_pos; lra).
    assert (length g = 200%nat) as Lg by (unfold g, geomspace; now rewrite map_length, seq_length).
    assert (nth 0 g 0 = e8 /\ nth 199 g 0 = last * (3 / 2)) as [E0 E1].
    { unfold g, geomspace. split; (rewrite (nth_indep _ 0 (e8 * Rpower (last * (3 / 2) / e8) (INR 0 / INR (200 - 1)))) by (rewrite map_length, seq_length; apply Nat.ltb_lt; reflexivity));
        rewrite (map_nth (fun i => e8 * Rpower (last * (3 / 2) / e8) (INR i / INR (200 - 1)))), seq_nth by (apply Nat.ltb_lt; reflexivity).
      - replace (INR (0 + 0) / INR (200 - 1)) with 0 by (cbn [plus]; change (INR 0) with 0; unfold Rdiv; now rewrite Rmult_0_l). rewrite Rpower_O; [apply Rmult_1_r|]. apply Rdiv_lt_0_compat; lra.
      - replace (INR (0 + 199) / INR (200 - 1)) with 1 by (change (0 + 199)%nat with (200 - 1)%nat; field; apply not_0_INR; discriminate). rewrite Rpower_1; [field; lra|]. apply Rdiv_lt_0_compat; lra. }
    eexists. split; [reflexivity|]. split; [rewrite map_length; exact Lg|]. split.
    { intros y Hy. apply in_map_iff in Hy as (c & <- & Hc). specialize (Pg c Hc). split; [apply exp_pos|]. rewrite <- exp_0. apply exp_increasing. lra. }
    split; [congruence|]. intros _. assert (forall i, (i < 200)%nat -> nth i (map (fun c => exp (- c)) g) 0 = exp (- nth i g 0)) as N.
    { intros i Hi. rewrite (nth_indep _ 0 (exp (- 0))) by (rewrite map_length, Lg; exact Hi). apply (map_nth (fun c => exp (- c))). }
    split; [|split; [rewrite N, E0 by (apply Nat.ltb_lt; reflexivity); reflexivity|rewrite N, E1 by (apply Nat.ltb_lt; reflexivity); reflexivity]].
    intros i j Hij. rewrite rev_length, map_length, Lg in Hij. rewrite !rev_nth by (rewrite map_length, Lg; lia). rewrite map_length, Lg, !N by lia. apply exp_increasing, Ropp_lt_contravar.
    apply (sorted_increasing g S). rewrite Lg. lia.
  - assert (forall t a b p, named_paper t a b = Some p -> valid_paper p -> exists Y, transform_spaced t e8 (1 - e8) 200 a b = Ok Y /\ length Y = N.to_nat 200 /\ increasing Y /\ nth 0 Y 0 = e8 /\ nth 199 Y 0 = 1 - e8) as TS.
    { intros t a b p Hp Hv. assert (exists l, transform_spaced t e8 (1 - e8) 200 a b = Ok l) as (l & El). { eexists. apply (spaced_list t e8 (1 - e8) 200 a b p Hp); [lra|lra|lia]. }
      exists l. split; [exact El|]. destruct (C98_points t e8 (1 - e8) 200 a b p l Hp Hv ltac:(lra) El) as (L & A & B & I). assert (length l = N.to_nat 200) as Ll by lia. split; [exact Ll|]. split; [exact I|].
      rewrite Rmin_left in A by lra. rewrite Rmax_right in B by lra. split; [exact A|]. rewrite Ll in B. exact B. }
    assert (exists Y, band_reliabilities d f last = Ok Y /\ length Y = N.to_nat 200 /\ increasing Y /\ nth 0 Y 0 = e8 /\ nth 199 Y 0 = 1 - e8) as (Y & E & L & I & A & B).
    { assert (band_reliabilities d f last = band_reliabilities d F_SF last) as -> by (destruct f; [reflexivity|reflexivity|congruence]). cbn [band_reliabilities]. fold e8.
      destruct d; try contradiction; try (eapply TS; [reflexivity|exact I]). 
      destruct (Rlt_dec 3 beta) as [Hb|_].
      - eapply TS; [reflexivity|]. cbn. lra.
      - eexists. split; [reflexivity|]. rewrite linspace_length. split; [reflexivity|]. split; [apply linspace_increasing; [lra|apply leb_complete; reflexivity]|].
        rewrite !linspace_nth by (apply Nat.ltb_lt; reflexivity). split; [cbn [INR]; ring|]. change 199%nat with (200 - 1)%nat at 1. field. apply not_0_INR. discriminate. }
    exists Y. split; [exact E|]. split; [exact L|]. assert (length Y = 200%nat) as L' by exact L. split; [|split; [auto|contradiction]].
    intros y Hy. destruct (in_increasing Y y I Hy) as [H1 H2]. rewrite L' in H2. change (200 - 1)%nat with 199%nat in H2. rewrite A in H1. rewrite B in H2. lra.
Qed.

(** ** A single point *)
Lemma row_ok_prob f (a b y z : R) : y < 1 -> z < 1 -> row_ok (func_name f) (a, b, y, z) = row_ok "CDF" (a, b, y, z).
Proof.
  intros Hy Hz. assert (row_ok "CDF" (a, b, y, z) = (Rltb' y 1 && Rltb' z 1) && (Rltb' clean_tol y && Rltb' clean_tol z)) as -> by reflexivity.
  assert (Rltb' y 1 = true /\ Rltb' z 1 = true) as [E1 E2] by (split; now apply Rltb'_true). rewrite E1, E2. destruct f; unfold row_ok; cbn; rewrite ?E1, ?E2; reflexivity.
Qed.
Lemma one_time gj d s Z q : ci_time gj d s Z [q] = match time_bounds gj d s Z q with Some (a, b) => if row_ok "CDF" (a, b, q, q) then Ok ([a], [b]) else Err ValueError | None => Err ValueError end.
Proof.
  unfold ci_time. cbn [map]. destruct (time_bounds gj d s Z q) as [[a b]|]; cbn [omap fst snd].
  - rewrite (clean_rows "CDF" [Some a] [Some b] [Some q] [Some q] false true [(a, b, q, q)] eq_refl). cbv zeta. cbn [filter length]. destruct (row_ok "CDF" (a, b, q, q)); reflexivity.
  - rewrite (clean_rows "CDF" [None] [None] [Some q] [Some q] false true [] eq_refl). reflexivity.
Qed.
Lemma one_reliability gj d s Z x : ci_reliability gj d s Z [x] =
  match rel_bounds gj d s Z x with Some (a, b) => if row_ok "CDF" (x - ci_gamma d, x - ci_gamma d, a, b) then Ok ([a], [b]) else Err ValueError | None => Err ValueError end.
Proof.
  unfold ci_reliability. cbn [map]. destruct (rel_bounds gj d s Z x) as [[a b]|]; cbn [omap fst snd].
  - rewrite (clean_rows "CDF" [Some (x - ci_gamma d)] [Some (x - ci_gamma d)] [Some a] [Some b] true false [(x - ci_gamma d, x - ci_gamma d, a, b)] eq_refl). cbv zeta. cbn [filter length]. destruct (row_ok "CDF" (x - ci_gamma d, x - ci_gamma d, a, b)); reflexivity.
  - rewrite (clean_rows "CDF" [Some (x - ci_gamma d)] [Some (x - ci_gamma d)] [None] [None] true false [] eq_refl). reflexivity.
Qed.
Lemma extract_time gj d s f CI y : two_parameters d -> 0 < y < 1 ->
  extract_CI gj d (Some s) f T_time CI (Some [shown_as f y]) None =
  match time_bounds gj d s (Z_of CI) y with Some (a, b) => if row_ok (func_name f) (a, b, y, y) then Ok (Some ([a], [b])) else Err ValueError | None => Err ValueError end.
Proof.
  intros T Hy. assert (extract_CI gj d (Some s) f T_time CI (Some [shown_as f y]) None = let! r := ci_time gj d s (Z_of CI) [q_of f (shown_as f y)] in Ok (Some r)) as -> by (destruct d; try contradiction; reflexivity).
  rewrite q_of_shown, one_time by lra. destruct (time_bounds gj d s (Z_of CI) y) as [[a b]|]; [|reflexivity]. rewrite row_ok_prob by lra. destruct (row_ok "CDF" (a, b, y, y)); reflexivity.
Qed.
Lemma unit_logit u e : 0 < u < 1 -> 0 < e -> 0 < u / (u + (1 - u) * e) < 1.
Proof.
  intros Hu He. assert (0 < (1 - u) * e) by (apply Rmult_lt_0_compat; lra). split; [apply Rdiv_lt_0_compat; lra|].
  apply (Rmult_lt_reg_r (u + (1 - u) * e)); [lra|]. unfold Rdiv. rewrite Rmult_assoc, Rinv_l by lra. lra.
Qed.
Lemma rel_unit gj d s Z x a b : valid d -> rel_bounds gj d s Z x = Some (a, b) -> 0 < a < 1 /\ 0 < b < 1.
Proof.
  intros Hv. unfold rel_bounds. destruct (u_at gj d x) as [[[u da] db]|] eqn:E; [|discriminate]. cbn [obind]. destruct (u_at_sf gj d x u da db Hv E) as [Hs Hin].
  destruct (half_width Z (var_of s da db)) as [w|]; [|discriminate]. cbn [omap]. intros H. injection H as H.
  assert (forall v, 0 < exp (- exp v) < 1) as EE. { intros v. split; [apply exp_pos|]. rewrite <- exp_0. apply exp_increasing. pose proof (exp_pos v). lra. }
  assert (forall v, 0 < 1 / (exp v + 1) < 1) as EL.
  { intros v. pose proof (exp_pos v). split; [apply Rdiv_lt_0_compat; lra|]. apply (Rmult_lt_reg_r (exp v + 1)); [lra|]. unfold Rdiv. rewrite Rmult_assoc, Rinv_l by lra. lra. }
  destruct d as [p q g|m sg|m sg g|l g|p q g|p q|p q g|m sg]; try discriminate E; injection H as <- <-; try (split; [apply EE|apply EE]); try (split; [apply EL|apply EL]); try (split; split; [apply Phi_gt_0|apply Phi_lt_1|apply Phi_gt_0|apply Phi_lt_1]).
  assert (0 < u < 1) as Hu.
  { cbn [unlink] in Hs. pose proof (F_in _ (all_facts (Gamma p q g) Hv) x Hin) as Q. pose proof (F_sf _ (all_facts (Gamma p q g) Hv) x) as Q'. lra. }
  split; apply unit_logit; auto using exp_pos.
Qed.
Lemma extract_reliability gj d s f CI x : valid d -> two_parameters d ->
  extract_CI gj d (Some s) f T_reliability CI None (Some [x]) =
  match rel_bounds gj d s (Z_of CI) x with
  | Some (a, b) => if row_ok (func_name f) (x - ci_gamma d, x - ci_gamma d, a, b) then Ok (Some (pick d f ([a], [b]))) else Err ValueError
  | None => Err ValueError end.
Proof.
  intros V T. assert (extract_CI gj d (Some s) f T_reliability CI None (Some [x]) = let! r := ci_reliability gj d s (Z_of CI) [x] in Ok (Some (pick d f r))) as -> by (destruct d; try contradiction; reflexivity).
  rewrite one_reliability. destruct (rel_bounds gj d s (Z_of CI) x) as [[a b]|] eqn:E; [|reflexivity]. apply (rel_unit gj d s _ x a b V) in E. rewrite row_ok_prob by lra.
  destruct (row_ok "CDF" _); reflexivity.
Qed.

(** ** The times drawn *)
Lemma ppf_increasing d p q : valid d -> 0 < p -> p < q -> q < 1 -> ppf d p < ppf d q.
Proof.
  intros V Hp Hpq Hq. destruct (F_ppf d (all_facts d V) p ltac:(lra)) as [I1 E1]. destruct (F_ppf d (all_facts d V) q ltac:(lra)) as [I2 E2].
  apply Rnot_le_lt. intros C. destruct C as [C|C].
  - pose proof (cdf_strict d V _ _ I2 I1 C). lra.
  - rewrite C in E2. lra.
Qed.
Lemma ppf_above d p : valid d -> two_parameters d -> 0 < p < 1 -> match d with Normal _ _ | Gumbel _ _ => True | _ => ci_gamma d < ppf d p end.
Proof.
  intros V T Hp. destruct (F_ppf d (all_facts d V) p Hp) as [[I1 _] _]. destruct d; try exact I; try contradiction; exact I1.
Qed.
Lemma times_sorted d : valid d -> two_parameters d -> match d with Gamma _ _ g => g = 0 -> / 10 ^ 4 < ppf d (1 - / 10 ^ 5) | _ => True end ->
  StronglySorted Rlt (band_times d) /\ length (band_times d) = N.to_nat 200.
Proof.
  intros V T HG. assert (0 < / 10 ^ 5 < / 2) as T5. { split; [apply Rinv_0_lt_compat, pow_lt; lra|]. apply Rinv_lt_contravar; lra. }
  assert (0 < / 10 ^ 7 < / 10 ^ 5) as T7. { split; [apply Rinv_0_lt_compat, pow_lt; lra|]. apply Rinv_lt_contravar; lra. }
  pose proof (ppf_increasing d (/ 10 ^ 5) (1 - / 10 ^ 5) V ltac:(lra) ltac:(lra) ltac:(lra)) as M. pose proof (ppf_increasing d (/ 10 ^ 7) (1 - / 10 ^ 5) V ltac:(lra) ltac:(lra) ltac:(lra)) as M'.
  pose proof (ppf_above d (/ 10 ^ 5) V T ltac:(lra)) as A. set (q := 1 - / 10 ^ 5) in *. set (e := / 10 ^ 5) in *. set (e7 := / 10 ^ 7) in *.
  assert (forall a b, a < b -> StronglySorted Rlt (linspace a b 200) /\ length (linspace a b 200) = N.to_nat 200) as Li.
  { intros a b H. split; [apply increasing_sorted, linspace_increasing; [exact H|apply leb_complete; reflexivity]|now rewrite linspace_length]. }
  assert (forall t0 b, 0 < t0 -> t0 < b -> StronglySorted Rlt (geomspace (if Rle_dec t0 0 then / 10 ^ 4 else t0) b 200) /\ length (geomspace (if Rle_dec t0 0 then / 10 ^ 4 else t0) b 200) = N.to_nat 200) as Ge.
  { intros t0 b H0 H. destruct (Rle_dec t0 0); [lra|]. split; [apply geomspace_sorted; [lra|apply leb_complete; reflexivity]|unfold geomspace; now rewrite map_length, seq_length]. }
  unfold band_times. cbv zeta. fold e e7. fold q. destruct d; try contradiction; try (apply Li; exact M); try (change (ci_gamma _) with gamma in *; apply Ge; lra).
  change (ci_gamma _) with gamma. apply Li. destruct (Req_EM_T gamma 0) as [->|N]; [specialize (HG eq_refl); lra|lra].
Qed.
Definition first_time (d : dist) : R :=
  match d with Gamma _ _ g => if Req_EM_T g 0 then / 10 ^ 4 else ppf d (/ 10 ^ 7) | _ => ppf d (/ 10 ^ 5) end.
Lemma geomspace_ends a b : 0 < a -> 0 < b -> nth 0 (geomspace a b 200) 0 = a /\ nth 199 (geomspace a b 200) 0 = b.
Proof.
  intros Ha Hb. unfold geomspace. split; (rewrite (nth_indep _ 0 (a * Rpower (b / a) (INR 0 / INR (200 - 1)))) by (rewrite map_length, seq_length; apply Nat.ltb_lt; reflexivity));
    rewrite (map_nth (fun i => a * Rpower (b / a) (INR i / INR (200 - 1)))), seq_nth by (apply Nat.ltb_lt; reflexivity).
  - replace (INR (0 + 0) / INR (200 - 1)) with 0 by (cbn [plus]; change (INR 0) with 0; unfold Rdiv; now rewrite Rmult_0_l). rewrite Rpower_O; [apply Rmult_1_r|]. apply Rdiv_lt_0_compat; lra.
  - replace (INR (0 + 199) / INR (200 - 1)) with 1 by (change (0 + 199)%nat with (200 - 1)%nat; field; apply not_0_INR; discriminate). rewrite Rpower_1; [field; lra|]. apply Rdiv_lt_0_compat; lra.
Qed.
Lemma linspace_ends a b : nth 0 (linspace a b 200) 0 = a /\ nth 199 (linspace a b 200) 0 = b.
Proof.
  rewrite !linspace_nth by (apply Nat.ltb_lt; reflexivity). split; [change (INR 0) with 0; unfold Rdiv; rewrite Rmult_0_l; apply Rplus_0_r|]. change 199%nat with (200 - 1)%nat at 1. field. apply not_0_INR. discriminate.
Qed.
Lemma times_ends d : valid d -> two_parameters d -> nth 0 (band_times d) 0 + ci_gamma d = first_time d /\ nth 199 (band_times d) 0 + ci_gamma d = ppf d (1 - / 10 ^ 5).
Proof.
  intros V T. assert (0 < / 10 ^ 5 < / 2) as T5. { split; [apply Rinv_0_lt_compat, pow_lt; lra|]. apply Rinv_lt_contravar; lra. }
  pose proof (ppf_above d (/ 10 ^ 5) V T ltac:(lra)) as A. pose proof (ppf_above d (1 - / 10 ^ 5) V T ltac:(lra)) as A'. set (q := 1 - / 10 ^ 5) in *. set (e := / 10 ^ 5) in *.
  unfold band_times, first_time. cbv zeta. fold e. fold q. destruct d; try contradiction; change (ci_gamma _) with gamma in * || change (ci_gamma _) with 0 in *.
  1,3,5: match goal with |- context [Rle_dec ?t 0] => destruct (Rle_dec t 0); [lra|] end; match goal with |- context [geomspace ?a ?b 200] => destruct (geomspace_ends a b) as [-> ->]; [lra|lra|] end; split; ring.
  all: match goal with |- context [linspace ?a ?b 200] => destruct (linspace_ends a b) as [-> ->] end; split; ring.
Qed.
