(** Nelson-Aalen, rank adjustment, and the two refutations about Kaplan-Meier. *)
From Coq Require Import List Arith Reals Bool Permutation Sorted Lra Lia.
From Verif Require Import Base RealFacts Gauss Ext NonparModel NonparSpec NonparProofs NonparProofs2.
Import ListNotations.
Open Scope R_scope.

(** * Nelson-Aalen *)
Fixpoint na_H (codes : list bool) (H : R) : list R :=
  match codes with
  | [] => []
  | c :: rest => let H := H + NonparModel.code c / INR (S (length rest)) in H :: na_H rest H
  end.

Lemma na_loop_H z rows : forall H sf d,
  map fst (na_loop z rows H sf d) = na_H (map snd rows) H.
Proof.
  induction rows as [|[t c] rest IH]; intros H sf d; [reflexivity|].
  cbn [na_loop map na_H snd]. rewrite map_length.
  destruct c; [destruct (greenwood _ _ _ _)|]; cbn [map fst]; now rewrite IH.
Qed.

Lemma na_loop_est z rows : forall H sf d,
  Forall (fun he => e_est (snd he) = exp (- fst he)) (na_loop z rows H sf d).
Proof.
  induction rows as [|[t c] rest IH]; intros H sf d; [constructor|].
  cbn [na_loop]. destruct c; [destruct (greenwood _ _ _ _)|]; constructor; try reflexivity; apply IH.
Qed.

Lemma na_loop_rows z rows : forall H sf d,
  map (fun he => (e_time (snd he), e_code (snd he))) (na_loop z rows H sf d) = rows.
Proof.
  induction rows as [|[t c] rest IH]; intros H sf d; [reflexivity|].
  cbn [na_loop]. destruct c; [destruct (greenwood _ _ _ _)|]; cbn [map snd e_time e_code]; now rewrite IH.
Qed.

Lemma na_H_prefix pre post : forall H,
  nth (length pre) (H :: na_H (map snd (pre ++ post)) H) 0 = H + hazard_sum (length post) pre.
Proof.
  induction pre as [|[t c] pre IH]; intros H; [simpl; ring|].
  cbn [app map na_H snd length hazard_sum].
  set (q := H + _ / _).
  change (nth (S (length pre)) (H :: q :: na_H (map snd (pre ++ post)) q) 0)
    with (nth (length pre) (q :: na_H (map snd (pre ++ post)) q) 0).
  rewrite IH. unfold q. rewrite map_length, app_length. unfold NonparModel.code. destruct c; unfold Rdiv; ring.
Qed.

Lemma na_H_incr codes : forall H,
  Forall (fun h => H <= h) (na_H codes H) /\ StronglySorted Rle (na_H codes H).
Proof.
  induction codes as [|c codes IH]; intros H; [split; constructor|].
  cbn [na_H]. set (q := H + _ / _).
  assert (H <= q) as Hq.
  { unfold q. assert (0 <= NonparModel.code c / INR (S (length codes))); [|lra].
    apply Rmult_le_pos; [destruct c; simpl; lra|]. left. apply Rinv_0_lt_compat, lt_0_INR, Nat.lt_0_succ. }
  destruct (IH q) as [F S]. split.
  - constructor; [assumption|]. eapply Forall_impl; [|exact F]. simpl. intros; lra.
  - constructor; assumption.
Qed.

Lemma na_ge_km codes : forall H prev, 0 <= prev <= exp (- H) ->
  Forall2 (fun h km => km <= exp (- h)) (na_H codes H) (km_est codes prev).
Proof.
  induction codes as [|c codes IH]; intros H prev Hp; [constructor|].
  cbn [na_H km_est]. set (q := _ / _ * prev). set (H' := H + _ / _).
  pose proof (km_factor_range c (length codes)) as Hf.
  assert (0 <= q <= exp (- H')) as Hq.
  { unfold q, H'. split; [nra|].
    replace (- (H + NonparModel.code c / INR (S (length codes)))) with (- (NonparModel.code c / INR (S (length codes))) + - H) by ring.
    rewrite exp_plus. apply Rmult_le_compat; try lra.
    replace ((INR (S (length codes)) - NonparModel.code c) / INR (S (length codes)))
      with (1 + - (NonparModel.code c / INR (S (length codes)))).
    - apply exp_ge_1_plus.
    - field. rewrite S_INR. pose proof (pos_INR (length codes)). lra. }
  constructor; [apply Hq|]. now apply IH.
Qed.

Lemma na_loop_ok z rows : epos z -> forall H s d, 0 <= H -> 0 <= s -> enonneg d ->
  Forall (fun he => entry_ok (snd he)) (na_loop z rows H (Fin s) d).
Proof.
  intros Hz.
  assert (enonneg z) as Hz'. { destruct z; simpl in *; try lra; auto. }
  induction rows as [|[t c] rest IH]; intros H s d Hp Hs Hd; [constructor|].
  cbn [na_loop]. set (q := H + _ / _).
  assert (0 <= q) as Hq.
  { unfold q. assert (0 <= NonparModel.code c / INR (S (length rest))); [|lra].
    apply Rmult_le_pos; [destruct c; simpl; lra|]. left. apply Rinv_0_lt_compat, lt_0_INR, Nat.lt_0_succ. }
  assert (0 < exp (- q) <= 1) as He.
  { split; [apply exp_pos|]. rewrite <- exp_0. destruct Hq as [Hq|<-].
    - left. apply exp_increasing. lra.
    - rewrite Ropp_0. lra. }
  destruct c.
  - destruct rest as [|r rest].
    + destruct (greenwood_last z (exp (- q)) s Hs Hz (proj1 He)) as (s' & d' & EG & Hd').
      cbn [length]. rewrite EG. constructor; [|constructor]. apply clip_brackets; [exact (conj (Rlt_le _ _ (proj1 He)) (proj2 He))|assumption].
    + destruct (greenwood_fin z (S (length (r :: rest))) (exp (- q)) s) as (s' & d' & EG & Hs' & Hd'); auto.
      { simpl. lia. }
      rewrite EG. constructor; [apply clip_brackets; [exact (conj (Rlt_le _ _ (proj1 He)) (proj2 He))|assumption]|]. now apply IH.
  - constructor; [apply clip_brackets; [exact (conj (Rlt_le _ _ (proj1 He)) (proj2 He))|assumption]|]. now apply IH.
Qed.

Lemma nelson_aalen_inv CI rows hes : nelson_aalen CI rows = Ok hes ->
  0 <= CI <= 1 /\ (2 <= n_failed rows)%nat /\ hes = na_loop (z_of_CI CI) rows 0 (Fin 0) (Fin 0).
Proof.
  unfold nelson_aalen. destruct (np_checks CI _) as [[]|] eqn:E; cbn [bind]; [|discriminate].
  apply np_checks_ok in E as [E1 E2]. intros H; injection H as <-. auto.
Qed.

Lemma nelson_aalen_spec CI rows hes : nelson_aalen CI rows = Ok hes ->
  map (fun he => (e_time (snd he), e_code (snd he))) hes = rows /\
  (forall pre r post, rows = pre ++ r :: post ->
     nth (length pre) (map fst hes) 0 = hazard_sum (length post) (pre ++ [r])) /\
  Forall (fun he => e_est (snd he) = exp (- fst he) /\ 0 < e_est (snd he) <= 1) hes /\
  non_increasing (1 :: map (fun he => e_est (snd he)) hes) /\
  (0 < CI -> Forall (fun he => entry_ok (snd he)) hes).
Proof.
  intros H. apply nelson_aalen_inv in H as (H1 & H2 & ->).
  set (hes := na_loop _ _ _ _ _).
  assert (map fst hes = na_H (map snd rows) 0) as EH by apply na_loop_H.
  assert (Forall (fun he => e_est (snd he) = exp (- fst he)) hes) as HE by apply na_loop_est.
  destruct (na_H_incr (map snd rows) 0) as [F S]. rewrite <- EH in F, S.
  rewrite Forall_map in F.
  assert (forall h, 0 <= h -> exp (- h) <= 1) as Hexp.
  { intros h [Hh| <-]; rewrite <- exp_0; [left; apply exp_increasing; lra|rewrite Ropp_0; lra]. }
  split; [apply na_loop_rows|]. split; [|split; [|split]].
  - intros pre r post E. rewrite EH.
    pose proof (na_H_prefix (pre ++ [r]) post 0) as P. rewrite app_length, Nat.add_comm in P.
    rewrite <- app_assoc in P. cbn [app length Nat.add] in P. rewrite <- E in P.
    rewrite Rplus_0_l in P. exact P.
  - rewrite Forall_forall in *. intros he Hin. rewrite (HE he Hin).
    split; [reflexivity|]. split; [apply exp_pos|]. auto.
  - assert (map (fun he => e_est (snd he)) hes = map (fun h => exp (- h)) (map fst hes)) as ->.
    { rewrite map_map. apply map_ext_in. rewrite Forall_forall in HE. intros. auto. }
    constructor.
    + eapply StronglySorted_map; [|exact S]. intros x y [Hx| ->]; [left; apply exp_increasing; lra|lra].
    + rewrite map_map, Forall_map. eapply Forall_impl; [|exact F]. intros he Hh. simpl in Hh. auto.
  - intros HC. apply na_loop_ok; simpl; try lra. apply z_pos. lra.
Qed.

Lemma nelson_aalen_ge_km CI CI' rows hes es :
  nelson_aalen CI rows = Ok hes -> kaplan_meier CI' rows = Ok es ->
  Forall2 (fun he e => e_est e <= e_est (snd he)) hes es.
Proof.
  intros H K. apply nelson_aalen_inv in H as (_ & _ & EH). apply kaplan_meier_inv in K as (_ & _ & EK).
  assert (Forall2 (fun h km => km <= exp (- h)) (map fst hes) (map e_est es)) as F.
  { rewrite EH, EK, na_loop_H, km_loop_est. apply na_ge_km. rewrite Ropp_0, exp_0. lra. }
  assert (Forall (fun he => e_est (snd he) = exp (- fst he)) hes) as HE by (rewrite EH; apply na_loop_est).
  clear EH EK. revert es F. induction HE as [|he hes E HE IH]; intros [|e es] F; cbn [map] in F; inversion F; subst; constructor; auto.
  now rewrite E.
Qed.

(** * Rank adjustment *)
Lemma ra_loop_rows z rows : forall cur ys sf d,
  map (fun e => (e_time e, e_code e)) (ra_loop z rows cur ys sf d) = rows.
Proof.
  induction rows as [|[t c] rest IH]; intros cur ys sf d; [reflexivity|].
  cbn [ra_loop]. destruct c; [destruct (greenwood _ _ _ _)|]; cbn [map e_time e_code]; now rewrite IH.
Qed.

Lemma ra_loop_est z pre t c post : forall cur ys sf d,
  nth (length pre) (map e_est (ra_loop z (pre ++ (t, c) :: post) cur ys sf d)) 1 =
  1 - nth (n_failed (pre ++ [(t, c)])) (cur :: ys) 0.
Proof.
  induction pre as [|[t' c'] pre IH]; intros cur ys sf d; cbn [app ra_loop length].
  - destruct c; [destruct (greenwood _ _ _ _)|]; cbn [map nth e_est n_failed filter snd length]; [|reflexivity].
    destruct ys; reflexivity.
  - destruct c'.
    + destruct (greenwood _ _ _ _). cbn [map nth]. rewrite IH. unfold n_failed. cbn [filter snd length].
      destruct ys as [|y ys]; cbn [hd tl nth]; [|reflexivity].
      destruct (length (filter snd (pre ++ [(t, c)]))) as [|[|k]]; reflexivity.
    + cbn [map nth]. rewrite IH. reflexivity.
Qed.

Lemma ra_loop_range z rows : forall cur ys sf d,
  (n_failed rows <= length ys)%nat -> cur < 1 -> Forall (fun y => cur <= y) ys ->
  StronglySorted Rle ys -> Forall (fun y => y < 1) ys ->
  Forall (fun x => 0 < x <= 1 - cur) (map e_est (ra_loop z rows cur ys sf d)) /\
  non_increasing (map e_est (ra_loop z rows cur ys sf d)).
Proof.
  induction rows as [|[t c] rest IH]; intros cur ys sf d HL Hc Hge HS H1; [split; constructor|].
  cbn [ra_loop]. destruct c.
  - destruct ys as [|y ys]; [unfold n_failed in HL; simpl in HL; lia|]. cbn [hd tl].
    inversion Hge; inversion HS; inversion H1; subst.
    destruct (greenwood _ _ _ _) as [sf' d']. cbn [map e_est].
    destruct (IH y ys sf' d') as [F S]; auto. { unfold n_failed in *. simpl in HL. lia. }
    split.
    + constructor; [lra|]. eapply Forall_impl; [|exact F]. simpl; intros; lra.
    + constructor; [exact S|]. eapply Forall_impl; [|exact F]. simpl; intros; lra.
  - cbn [map e_est]. destruct (IH cur ys sf d) as [F S]; auto.
    split.
    + constructor; [lra|assumption].
    + constructor; [exact S|]. eapply Forall_impl; [|exact F]. simpl; intros; lra.
Qed.

Lemma ra_loop_ok z rows : epos z -> forall cur ys s d,
  0 <= cur < 1 -> Forall (fun y => 0 <= y < 1) ys -> 0 <= s -> enonneg d ->
  Forall entry_ok (ra_loop z rows cur ys (Fin s) d).
Proof.
  intros Hz.
  assert (enonneg z) as Hz'. { destruct z; simpl in *; try lra; auto. }
  induction rows as [|[t c] rest IH]; intros cur ys s d Hp Hys Hs Hd; [constructor|].
  cbn [ra_loop]. destruct c.
  - assert (0 <= hd 0 ys < 1 /\ Forall (fun y => 0 <= y < 1) (tl ys)) as [Hh Ht].
    { destruct ys as [|y ys]; simpl; [split; [lra|constructor]|]. now inversion Hys. }
    destruct rest as [|r rest].
    + destruct (greenwood_last z (1 - hd 0 ys) s Hs Hz ltac:(lra)) as (s' & d' & EG & Hd').
      cbn [length]. rewrite EG. constructor; [|constructor]. apply clip_brackets; [cbn [e_est]; lra|assumption].
    + destruct (greenwood_fin z (S (length (r :: rest))) (1 - hd 0 ys) s) as (s' & d' & EG & Hs' & Hd'); auto.
      { simpl. lia. }
      rewrite EG. constructor; [apply clip_brackets; [cbn [e_est]; lra|assumption]|]. now apply IH.
  - constructor; [apply clip_brackets; [cbn [e_est]; lra|assumption]|]. now apply IH.
Qed.

(** The failures among the entries carry the plotting positions in order. *)
Lemma ra_loop_failures z rows : forall cur ys sf d, length ys = n_failed rows ->
  map e_est (filter e_code (ra_loop z rows cur ys sf d)) = map (fun y => 1 - y) ys.
Proof.
  induction rows as [|[t c] rest IH]; intros cur ys sf d HL.
  - destruct ys; [reflexivity|discriminate].
  - cbn [ra_loop]. destruct c.
    + destruct ys as [|y ys]; [discriminate|]. cbn [hd tl].
      destruct (greenwood _ _ _ _). cbn [filter e_code map e_est]. f_equal. apply IH.
      unfold n_failed in *. simpl in HL. lia.
    + cbn [filter e_code]. now apply IH.
Qed.

Lemma twice_length {A} (l : list A) : length (twice l) = (2 * length l)%nat.
Proof. unfold twice. induction l; simpl; lia. Qed.

Lemma ra_steps_length prev xy : length (ra_steps prev xy) = (2 * length xy)%nat.
Proof. revert prev. induction xy as [|[x y] xy IH]; intros; simpl; [reflexivity|]. rewrite IH. lia. Qed.

Lemma ra_steps_brackets xs : forall ys lows ups l0 u0 y0,
  length xs = length ys -> brk (1 - y0) l0 u0 ->
  Forall3 brk (map (fun y => 1 - y) ys) lows ups ->
  Forall3 brk ((1 - y0) :: map (fun p => 1 - snd p) (ra_steps y0 (combine xs ys)) ++ [1 - last ys y0])
    (twice (l0 :: lows)) (twice (u0 :: ups)).
Proof.
  induction xs as [|x xs IH]; intros [|y ys] lows ups l0 u0 y0 HL H0 HF; cbn [map] in HF;
    inversion HF; subst; cbn in HL; try lia.
  - simpl. repeat constructor; assumption.
  - cbn [combine ra_steps map snd app]. unfold twice. cbn [flat_map app].
    constructor; [assumption|]. constructor; [assumption|].
    replace (last (y :: ys) y0) with (last ys y).
    2:{ clear. destruct ys as [|z ys]; [reflexivity|]. cbn [last]. revert z. induction ys; intros; [reflexivity|]. simpl in *. auto. }
    apply (IH ys m n b c y); auto.
Qed.

Lemma ra_steps_last xs : forall ys y0, length xs = length ys ->
  snd (last ((0, y0) :: ra_steps y0 (combine xs ys)) (0, 0)) = last ys y0.
Proof.
  assert (forall xs ys x y0, length xs = length ys ->
    snd (last ((x, y0) :: ra_steps y0 (combine xs ys)) (0, 0)) = last ys y0) as G; [|auto].
  clear xs. induction xs as [|x xs IH]; intros [|y ys] x0 y0 HL; cbn in HL; try lia; [reflexivity|].
  cbn [combine ra_steps]. rewrite !last_cons_ne by discriminate. rewrite IH by lia.
  destruct ys as [|z ys]; [reflexivity|]. clear. cbn [last]. revert z. induction ys; intros; [reflexivity|]. simpl in *. auto.
Qed.

Lemma Forall3_removelast {A B C} (R : A -> B -> C -> Prop) l m n :
  Forall3 R l m n -> Forall3 R (removelast l) (removelast m) (removelast n).
Proof.
  induction 1 as [|a b c l m n H HF IH]; [constructor|].
  destruct HF; [constructor|]. cbn [removelast] in *. now constructor.
Qed.

Lemma Forall3_maps {A X Y Z} (R : X -> Y -> Z -> Prop) (f : A -> X) (g : A -> Y) (h : A -> Z) l :
  Forall (fun a => R (f a) (g a) (h a)) l -> Forall3 R (map f l) (map g l) (map h l).
Proof. induction 1; simpl; constructor; auto. Qed.

Lemma rank_adjustment_spec CI a rows res :
  a_value a < 1 -> rank_adjustment CI a rows = Ok res ->
  exists x y, plotting_positions_sorted a rows = Ok (x, y) /\
  map (fun e => (e_time e, e_code e)) (ra_entries res) = rows /\
  (forall pre t c post, rows = pre ++ (t, c) :: post ->
     nth (length pre) (map e_est (ra_entries res)) 1
     = 1 - nth (n_failed (pre ++ [(t, c)])) (0 :: y) 0) /\
  non_increasing (1 :: map e_est (ra_entries res)) /\
  Forall (fun e => 0 < e_est e <= 1) (ra_entries res) /\
  length (ra_x res) = length (ra_SF res) /\
  (0 < CI -> Forall entry_ok (ra_entries res) /\
    Forall3 brk (ra_SF res) (ra_lower res) (ra_upper res)).
Proof.
  intros Ha H. unfold rank_adjustment in H.
  destruct (np_checks CI _) as [[]|] eqn:E; cbn [bind] in H; [|discriminate].
  apply np_checks_ok in E as [E1 E2].
  destruct (plotting_positions_sorted a rows) as [[x y]|] eqn:EP; cbn [bind fst snd] in H; [|discriminate].
  injection H as <-. exists x, y. split; [reflexivity|].
  destruct (plotting_positions_range _ _ _ _ Ha EP) as [HSy Hy].
  destruct (plotting_positions_johnson _ _ _ _ EP) as (Lx & Ly & _).
  unfold ra_build; cbn [ra_entries ra_x ra_SF ra_lower ra_upper].
  set (es := ra_loop _ _ _ _ _ _).
  split; [apply ra_loop_rows|]. split; [|split; [|split; [|split]]].
  - intros pre t c post ->. apply ra_loop_est.
  - destruct (ra_loop_range (z_of_CI CI) rows 0 y (Fin 0) (Fin 0)) as [F S]; try lia; try lra.
    + eapply Forall_impl; [|exact Hy]. simpl; intros; lra.
    + clear -HSy. induction HSy; constructor; auto. eapply Forall_impl; [|eassumption]. intros; lra.
    + eapply Forall_impl; [|exact Hy]. simpl; intros; lra.
    + constructor; [exact S|]. eapply Forall_impl; [|exact F]. simpl; intros; lra.
  - destruct (ra_loop_range (z_of_CI CI) rows 0 y (Fin 0) (Fin 0)) as [F S]; try lia; try lra.
    + eapply Forall_impl; [|exact Hy]. simpl; intros; lra.
    + clear -HSy. induction HSy; constructor; auto. eapply Forall_impl; [|eassumption]. intros; lra.
    + eapply Forall_impl; [|exact Hy]. simpl; intros; lra.
    + rewrite Forall_map in F. eapply Forall_impl; [|exact F]. simpl; intros; lra.
  - now rewrite !map_length.
  - intros HC.
    assert (Forall entry_ok es) as Hok.
    { apply ra_loop_ok; simpl; try lra; [apply z_pos; lra|].
      eapply Forall_impl; [|exact Hy]. simpl; intros; lra. }
    split; [exact Hok|].
    assert (Forall3 brk (map (fun v => 1 - v) y) (map e_lower (filter e_code es)) (map e_upper (filter e_code es))) as F3.
    { rewrite <- (ra_loop_failures (z_of_CI CI) rows 0 y (Fin 0) (Fin 0)) by assumption.
      apply Forall3_maps. fold es. rewrite Forall_forall in *. intros e He. apply filter_In in He. now apply Hok. }
    assert (length x = length y) as Lxy by lia.
    assert (brk (1 - 0) (Fin 1) (Fin 1)) as B0. { rewrite Rminus_0_r. apply brackets_one. }
    pose proof (ra_steps_brackets x y _ _ (Fin 1) (Fin 1) 0 Lxy B0 F3) as G.
    destruct (snd (last rows (0, false))).
    + apply Forall3_removelast in G.
      rewrite app_comm_cons, removelast_last in G. cbn [map snd]. exact G.
    + rewrite map_app. cbn [map app]. rewrite ra_steps_last by assumption. exact G.
Qed.

(** * A bound on the 97.5% quantile of the normal distribution *)
Lemma exp_INR_mult n x : exp (INR n * x) = exp x ^ n.
Proof.
  induction n as [|n IH]; [simpl; rewrite Rmult_0_l; apply exp_0|].
  rewrite S_INR, Rmult_plus_distr_r, exp_plus, IH, Rmult_1_l. simpl. ring.
Qed.

Lemma Phi_3 : 975 / 1000 <= Phi 3.
Proof.
  rewrite Phi_gE.
  assert (0 < sqrt 2) as H2 by (apply sqrt_lt_R0; lra).
  assert (sqrt 2 * sqrt 2 = 2) as HS by (apply sqrt_sqrt; lra).
  assert (0 < 3 / sqrt 2) as Hx by (apply Rdiv_lt_0_compat; lra).
  pose proof sqrt_PI_pos as HP. pose proof (sqrt_sqrt PI (Rlt_le _ _ PI_RGT_0)) as HPP.
  assert (3 < PI) as HPI. { pose proof PI2_3_2. lra. }
  assert (3 / sqrt 2 * (3 / sqrt 2) = 9 / 2) as Hsq.
  { unfold Rdiv. transitivity (9 * / (sqrt 2 * sqrt 2)); [field; lra|rewrite HS; lra]. }
  assert (exp (- (9 / 2)) <= 1 / 38) as He.
  { assert (38 <= exp (9 / 2)) as Hb.
    { replace (9 / 2) with (INR 9 * (1 / 2)) by (simpl; lra). rewrite exp_INR_mult. clear.
      assert (3 / 2 <= exp (1 / 2)). { pose proof (exp_ge_1_plus (1 / 2)). lra. }
      apply Rle_trans with ((3 / 2) ^ 9); [simpl; lra|]. apply pow_incr. lra. }
    rewrite exp_Ropp. unfold Rdiv. rewrite Rmult_1_l. apply Rinv_le_contravar; lra. }
  destruct (gE_ge (3 / sqrt 2) Hx) as [G|G]; rewrite Hsq in G.
  - set (g := gE (3 / sqrt 2)) in *. apply Rmult_le_reg_r with (sqrt PI); [assumption|].
    replace ((1 / 2 + g / sqrt PI) * sqrt PI) with (sqrt PI / 2 + g) by (field; lra).
    assert (17 / 10 < sqrt PI). { apply Rsqr_incrst_0; unfold Rsqr; lra. }
    lra.
  - set (g := gE (3 / sqrt 2)) in *.
    apply Rmult_le_reg_r with (sqrt PI * sqrt PI); [nra|].
    replace ((1 / 2 + g / sqrt PI) * (sqrt PI * sqrt PI)) with (sqrt PI * sqrt PI / 2 + g * sqrt PI) by (field; lra).
    assert (sqrt PI * sqrt PI / 2 - g * sqrt PI <= 2 * (1 / 38)) by lra.
    rewrite HPP in *. lra.
Qed.
