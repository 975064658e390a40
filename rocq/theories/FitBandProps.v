(** C168: the shaded band of a fitted distribution shows its confidence limits. *)
From Coquelicot Require Import Coquelicot.
From Coq Require Import String.
From Coq Require Import List Arith Reals Lra Lia Bool ZArith Sorted.
From Verif Require Import Base RealFacts Gauss Ext RList ConvertModel RepairModel DistModel DistSpec DistProofs DistProofs2 CombProofs CIModel CISpec CIProofs CIProofs2 PlotModel PlotSpec PlotProofs PlotProofs2 PlotProps BandModel BandSpec BandProps BandProps2 DistProofs5 FitBandModel FitBandSpec FitBandProofs.
Import ListNotations.
Open Scope R_scope.

Lemma nth_map_any {A} (h : A -> R) l i a : (i < length l)%nat -> nth i (map h l) 0 = h (nth i l a).
Proof. intros Hi. rewrite (nth_indep _ 0 (h a)) by now rewrite map_length. apply map_nth. Qed.
Lemma sorted_incl_map (h : R -> R) l : (forall u v, In u l -> In v l -> u < v -> h u < h v) -> StronglySorted Rlt l -> increasing (map h l).
Proof.
  intros M S. apply sorted_increasing. induction S as [|a l S IH F]; cbn [map]; constructor.
  - apply IH. intros u v Hu Hv. apply M; now right.
  - rewrite Forall_forall in *. intros x Hx. apply in_map_iff in Hx as (v & <- & Hv). apply M; [now left|now right|now apply F].
Qed.
Lemma sorted_incl_rev (h : R -> R) l : (forall u v, In u l -> In v l -> u < v -> h v < h u) -> StronglySorted Rlt l -> increasing (rev (map h l)).
Proof.
  intros M St i j Hij. rewrite rev_length in Hij. rewrite !rev_nth by lia. assert (increasing (map (fun v => - h v) l)) as I by (apply sorted_incl_map; [intros u v Hu Hv H; specialize (M u v Hu Hv H); lra|exact St]).
  rewrite map_length in *. specialize (I (length l - S j) (length l - S i))%nat. rewrite map_length in I. specialize (I ltac:(lia)).
  rewrite !(nth_map_any (fun v => - h v) l _ 0) in I by lia. rewrite !(nth_map_any h l _ 0) by lia. lra.
Qed.
Lemma sorted_app (Q : R -> R -> Prop) a b : StronglySorted Q a -> StronglySorted Q b -> (forall x y, In x a -> In y b -> Q x y) -> StronglySorted Q (a ++ b).
Proof.
  intros A B H. induction A as [|x a A IH F]; [exact B|]. cbn [app]. constructor; [apply IH; intros u v Hu; apply H; now right|]. rewrite Forall_forall in *. intros y Hy. apply in_app_or in Hy as [Hy|Hy]; [now apply F|]. apply H; [now left|exact Hy].
Qed.
Lemma sorted_rev (Q : R -> R -> Prop) l : StronglySorted Q l -> StronglySorted (fun x y => Q y x) (rev l).
Proof.
  induction 1 as [|a l S IH F]; cbn [rev]; [constructor|]. apply sorted_app; [exact IH|repeat constructor|]. intros x y Hx [<-|[]]. rewrite <- in_rev in Hx. rewrite Forall_forall in F. now apply F.
Qed.
(** ** Bounds on time *)
(** At 200 heights from 1e-8 up to 1 - 1e-8 (or 1.5 times the last cumulative hazard drawn), where CDF, SF or CHF return limits on
    time for this height: the edges of the shaded band go through these limits (as long as these go the right way), and the band
    is the region between its edges. *)
Theorem C168_time paper gj d s CI f last : valid d -> two_parameters d -> (f = F_CHF -> / 10 ^ 8 < last * (3 / 2)) -> (paper = true -> f <> F_CHF) ->
  let at_height h := extract_CI gj d (Some s) f T_time CI (Some [h]) None in
  let top := match f with F_CHF => last * (3 / 2) | _ => 1 - / 10 ^ 8 end in
  let down := match f with F_CHF => false | _ => true end in
  let ordered l := match f with F_CDF => increasing (rev l) | _ => increasing l end in
  exists b grid hs lo up lo' up',
    time_band paper gj d s (Z_of CI) f last = Ok b /\
    length grid = N.to_nat 200 /\ ordered grid /\ In (/ 10 ^ 8) grid /\ In top grid /\ (forall h, In h grid -> / 10 ^ 8 <= h <= top) /\
    ordered hs /\ (forall h, In h hs <-> In h grid /\ exists r, at_height h = Ok r) /\
    length lo = length hs /\ length up = length hs /\ (forall i, (i < length hs)%nat -> at_height (nth i hs 0) = Ok (Some ([nth i lo 0], [nth i up 0]))) /\
    drawn_limit down lo lo' /\ drawn_limit down up up' /\
    b_line_lower b = combine lo' hs /\ b_line_upper b = combine up' hs /\
    (forall t h, inside (h, t) (map swap (b_polygon b)) <->
       exists l u, height (map swap (b_line_lower b)) h l /\ height (map swap (b_line_upper b)) h u /\ between_heights l u t).
Proof.
  intros V T HC HP at_height top down ordered. destruct (reliabilities_ok d f last V T HC) as (Y & EY & LY & U & NC & CH). pose proof tiny8 as T8.
  unfold time_band. rewrite EY. cbn [bind]. cbv zeta. rewrite time_rows. cbv zeta. cbn [bind]. set (F := time_bounds gj d s (Z_of CI)). set (rs := rows F _ Y).
  pose proof (drawn_without (match f with F_CHF => false | _ => true end) (map (fun r => snd (fst r)) rs) (map snd rs)) as DW. cbv zeta in DW. fold down in DW |- *.
  destruct (without_reversals down _ _) as [lo' up']. cbn [fst snd] in DW. destruct DW as [DL DU].
  set (Yk := map (fun r : R * R * R => fst (fst r)) rs) in *.
  assert (forall y, In y Yk <-> In y Y /\ exists r, at_height (shown_as f y) = Ok r) as K.
  { intros y. unfold Yk. rewrite in_map_iff. split.
    - intros ([[y' a] c] & E & Hr). cbn [fst] in E. subst y'. apply rows_in in Hr as (H1 & H2 & H3). split; [exact H1|]. unfold at_height. rewrite extract_time by auto. fold F. rewrite H2, H3. eauto.
    - intros [H1 [r H2]]. unfold at_height in H2. rewrite extract_time in H2 by auto. fold F in H2. destruct (F y) as [[a c]|] eqn:EF; [|discriminate]. destruct (row_ok _ _) eqn:ER; [|discriminate].
      exists (y, a, c). split; [reflexivity|]. now apply rows_in. }
  assert (forall i, (i < length rs)%nat -> at_height (shown_as f (nth i Yk 0)) = Ok (Some ([nth i (map (fun r : R * R * R => snd (fst r)) rs) 0], [nth i (map (@snd (R * R) R) rs) 0]))) as EX.
  { intros i Hi. unfold Yk. rewrite !(nth_map_any _ rs i (0, 0, 0)) by exact Hi. pose proof (nth_In rs (0, 0, 0) Hi) as Hin. destruct (nth i rs (0, 0, 0)) as [[y a] c]. cbn [fst snd] in *.
    apply rows_in in Hin as (H1 & H2 & H3). unfold at_height. rewrite extract_time by auto. fold F. now rewrite H2, H3. }
  assert (forall l : list R, (forall y, In y l -> 0 < y) -> f <> F_CHF -> StronglySorted Rlt l -> ordered (map (shown_as f) l)) as MN.
  { intros l _ Nf S. unfold ordered. destruct f; [apply sorted_incl_rev; [intros u v _ _ H; cbn [shown_as]; lra|exact S]|apply sorted_incl_map; [intros u v _ _ H; exact H|exact S]|congruence]. }
  assert (forall l : list R, (forall y, In y l -> 0 < y) -> f = F_CHF -> StronglySorted (fun u v => v < u) l -> ordered (map (shown_as f) l)) as MC.
  { intros l Hp Ef S. unfold ordered. rewrite Ef. apply sorted_rev in S. rewrite <- (rev_involutive (map (shown_as F_CHF) l)), <- map_rev. apply sorted_incl_rev; [|exact S].
    intros u v Hu Hv H. rewrite <- in_rev in Hu. cbn [shown_as]. pose proof (ln_increasing u v (Hp u Hu) H). lra. }
  assert (ordered (map (shown_as f) Y) /\ ordered (map (shown_as f) Yk)) as [SG SH].
  { assert (forall y, In y Yk -> 0 < y) as PY by (intros y Hy; apply K in Hy as [Hy _]; now apply U). assert (forall y, In y Y -> 0 < y) as PY' by (intros y Hy; now apply U).
    assert (f = F_CHF \/ f <> F_CHF) as [Ef|Ef] by (destruct f; [right|right|left]; congruence).
    - destruct (CH Ef) as (I & _). apply increasing_sorted, sorted_rev in I. rewrite rev_involutive in I. split; apply MC; auto. now apply rows_sorted.
    - destruct (NC Ef) as (I & _). apply increasing_sorted in I. split; apply MN; auto. now apply rows_sorted. }
  assert (length Yk = length rs) as LK by apply map_length.
  eexists. exists (map (shown_as f) Y), (map (shown_as f) Yk), (map (fun r => snd (fst r)) rs), (map snd rs), lo', up'.
  split; [reflexivity|]. cbn [b_polygon b_line_lower b_line_upper]. split; [rewrite map_length; exact LY|]. split; [exact SG|].
  assert (length Y = 200%nat) as LY' by exact LY.
  assert (In (/ 10 ^ 8) (map (shown_as f) Y) /\ In top (map (shown_as f) Y) /\ forall h, In h (map (shown_as f) Y) -> / 10 ^ 8 <= h <= top) as (G1 & G2 & G3).
  { assert (In (nth 0 Y 0) Y) as I0 by (apply nth_In; rewrite LY'; apply Nat.ltb_lt; reflexivity). assert (In (nth 199 Y 0) Y) as I1 by (apply nth_In; rewrite LY'; apply Nat.ltb_lt; reflexivity).
    rewrite !in_map_iff. assert (f = F_CHF \/ f <> F_CHF) as [Ef|Ef] by (destruct f; [right|right|left]; congruence).
    - destruct (CH Ef) as (I & A & B). unfold top. rewrite Ef. cbn [shown_as]. rewrite A in I0. rewrite B in I1. split; [exists (exp (- / 10 ^ 8)); split; [rewrite ln_exp; ring|exact I0]|].
      split; [exists (exp (- (last * (3 / 2)))); split; [rewrite ln_exp; ring|exact I1]|]. intros h (y & <- & Hy)%in_map_iff. rewrite in_rev in Hy. destruct (in_increasing _ y I Hy) as [Q1 Q2].
      rewrite rev_length, LY' in Q2. rewrite rev_nth in Q1, Q2 by (rewrite LY'; apply Nat.ltb_lt; reflexivity). rewrite LY' in Q1, Q2. change (200 - 1)%nat with 199%nat in Q1, Q2. change (200 - 200)%nat with 0%nat in Q2. 
      change (200 - S 199)%nat with 0%nat in Q2. rewrite B in Q1. rewrite A in Q2. rewrite <- in_rev in Hy. pose proof (U y Hy).
      assert (ln (exp (- (last * (3 / 2)))) <= ln y <= ln (exp (- / 10 ^ 8))) as Q by (split; apply ln_le; try lra; apply exp_pos). rewrite !ln_exp in Q. cbn [shown_as]. lra.
    - destruct (NC Ef) as (I & A & B). unfold top. rewrite A in I0. rewrite B in I1.
      assert (forall y, In y Y -> / 10 ^ 8 <= y <= 1 - / 10 ^ 8) as R. { intros y Hy. destruct (in_increasing _ y I Hy) as [Q1 Q2]. rewrite LY' in Q2. change (200 - 1)%nat with 199%nat in Q2. rewrite A in Q1. rewrite B in Q2. lra. }
      destruct f; [| |congruence]; cbn [shown_as].
      + split; [exists (1 - / 10 ^ 8); split; [ring|exact I1]|]. split; [exists (/ 10 ^ 8); split; [reflexivity|exact I0]|]. intros h (y & <- & Hy)%in_map_iff. specialize (R y Hy). cbn [shown_as]. lra.
      + split; [exists (/ 10 ^ 8); split; [reflexivity|exact I0]|]. split; [exists (1 - / 10 ^ 8); split; [reflexivity|exact I1]|]. intros h (y & <- & Hy)%in_map_iff. now apply R. }
  split; [exact G1|]. split; [exact G2|]. split; [exact G3|]. split; [exact SH|]. split.
  { intros h. rewrite !in_map_iff. split.
    - intros (y & <- & Hy). apply K in Hy as [H1 H2]. split; [exists y; auto|exact H2].
    - intros [(y & <- & Hy) H2]. exists y. split; [reflexivity|]. apply K. auto. }
  split; [rewrite !map_length; auto|]. split; [rewrite !map_length; auto|]. split.
  { intros i Hi. rewrite map_length, LK in Hi. rewrite (nth_map_any _ Yk i 0) by lia. now apply EX. }
  split; [exact DL|]. split; [exact DU|]. split; [reflexivity|]. split; [reflexivity|].
  assert (length lo' = length (map (shown_as f) Yk) /\ length up' = length (map (shown_as f) Yk)) as [L1 L2]. { destruct DL as [-> _]. destruct DU as [-> _]. rewrite !map_length. auto. }
  intros t h. assert (fill_no_autoscale paper lo' up' (map (shown_as f) Yk) (map (shown_as f) Yk) = fill_no_autoscale false lo' up' (map (shown_as f) Yk) (map (shown_as f) Yk)) as ->.
  { destruct paper; [|reflexivity]. apply C165_paper. intros y Hy. assert (In y (map (shown_as f) Yk)) as (w & <- & Hw)%in_map_iff by tauto. apply K in Hw as [Hw _]. specialize (U w Hw).
    destruct f; cbn [shown_as]; [lra|lra|now destruct (HP eq_refl)]. }
  apply C165_time; [exact L1|exact L2|]. unfold ordered in SH. destruct f; [now right|now left|now left].
Qed.
Print Assumptions C168_time.

(** ** Bounds on reliability *)
Definition exchanged (d : dist) (f : cfunc) : bool :=
  match d, f with (Normal _ _ | Lognormal _ _ _), F_SF => true | (Normal _ _ | Lognormal _ _ _), _ => false | _, F_SF => false | _, _ => true end.
Lemma pick_one d f a b : two_parameters d -> pick d f ([a], [b]) = if exchanged d f then ([shown_as f b], [shown_as f a]) else ([shown_as f a], [shown_as f b]).
Proof. intros T. destruct d; try contradiction; destruct f; reflexivity. Qed.

(** At 200 times from [first_time d] (the 0.00001 quantile) to the 0.99999 quantile, where CDF, SF or CHF return limits for this time: the
    edges of the band go through these limits (as long as these go the right way), and the band is the region between its edges. *)
Theorem C168_reliability_partial paper gj d s CI f : valid d -> two_parameters d -> match d with Gamma _ _ g => g = 0 -> / 10 ^ 4 < ppf d (1 - / 10 ^ 5) | _ => True end ->
  (paper = true -> f <> F_CHF) ->
  let at_time x := extract_CI gj d (Some s) f T_reliability CI None (Some [x]) in
  let first := match d with Gamma _ _ g => if Req_EM_T g 0 then / 10 ^ 4 else ppf d (/ 10 ^ 7) | _ => ppf d (/ 10 ^ 5) end in
  let down := match f with F_SF => true | _ => false end in
  exists b grid xs lo up lo' up',
    reliability_band paper gj d s (Z_of CI) f = Ok b /\
    length grid = N.to_nat 200 /\ increasing grid /\ In first grid /\ In (ppf d (1 - / 10 ^ 5)) grid /\ (forall x, In x grid -> first <= x <= ppf d (1 - / 10 ^ 5)) /\
    increasing xs /\ (forall x, In x xs <-> In x grid /\ exists r, at_time x = Ok r) /\
    length lo = length xs /\ length up = length xs /\ (forall i, (i < length xs)%nat -> at_time (nth i xs 0) = Ok (Some ([nth i lo 0], [nth i up 0]))) /\
    drawn_limit down lo lo' /\ drawn_limit down up up' /\
    (b_line_lower b = combine xs lo' /\ b_line_upper b = combine xs up' \/ b_line_lower b = combine xs up' /\ b_line_upper b = combine xs lo') /\
    (forall x y, inside (x, y) (b_polygon b) <-> exists l u, height (combine xs lo') x l /\ height (combine xs up') x u /\ between_heights l u y).
Proof.
  intros V T HG HP at_time first down. destruct (times_sorted d V T HG) as [ST LT]. destruct (times_ends d V T) as [E0 E1]. change (first_time d) with first in E0.
  unfold reliability_band. cbv zeta. set (t := band_times d) in *. set (g := ci_gamma d) in *. set (F := fun t => rel_bounds gj d s (Z_of CI) (t + g)).
  rewrite rel_rows. cbv zeta. cbn [bind]. set (rs := rows F _ t).
  assert (forall y a c, In (y, a, c) rs -> In y t /\ rel_bounds gj d s (Z_of CI) (y + g) = Some (a, c) /\ row_ok (func_name f) (y, y, a, c) = true /\ 0 < a < 1 /\ 0 < c < 1) as RI.
  { intros y a c H. apply rows_in in H as (H1 & H2 & H3). split; [exact H1|]. split; [exact H2|]. split; [exact H3|]. exact (rel_unit gj d s _ _ a c V H2). }
  pose proof (drawn_without true (map (fun r => snd (fst r)) rs) (map snd rs)) as DW. cbv zeta in DW.
  destruct (without_reversals true _ _) as [yl' yu']. cbn [fst snd] in DW. destruct DW as [DL DU].
  set (yl := map (fun r : R * R * R => snd (fst r)) rs) in *. set (yu := map (@snd (R * R) R) rs) in *. set (tk := map (fun r : R * R * R => fst (fst r)) rs).
  assert (length tk = length rs /\ length yl = length rs /\ length yu = length rs) as (L1 & L2 & L3) by (unfold tk, yl, yu; now rewrite !map_length).
  assert (forall v, In v yl -> 0 < v < 1) as PL. { intros v ([[y a] c] & <- & H)%in_map_iff. now apply RI in H. }
  assert (forall v, In v yu -> 0 < v < 1) as PU. { intros v ([[y a] c] & <- & H)%in_map_iff. now apply RI in H. }
  assert (drawn_limit down (map (shown_as f) yl) (map (shown_as f) yl') /\ drawn_limit down (map (shown_as f) yu) (map (shown_as f) yu')) as [DL' DU'].
  { split; (apply (drawn_map true); [|intros u v Hu Hv; now apply (shown_order f u v)|assumption]); intros v Hv; [now apply PL|now apply PU]. }
  assert (forall x, x - g + g = x) as XG by (intros; ring).
  assert (forall y, at_time (y + g) = match F y with Some (a, c) => if row_ok (func_name f) (y, y, a, c) then Ok (Some (pick d f ([a], [c]))) else Err ValueError | None => Err ValueError end) as AT.
  { intros y. unfold at_time. rewrite extract_reliability by assumption. fold g. replace (y + g - g) with y by ring. reflexivity. }
  assert (forall y, In y tk <-> In y t /\ exists r, at_time (y + g) = Ok r) as K.
  { intros y. unfold tk. rewrite in_map_iff. split.
    - intros ([[y' a] c] & E & Hr). cbn [fst] in E. subst y'. apply rows_in in Hr as (H1 & H2 & H3). split; [exact H1|]. rewrite AT, H2, H3. eauto.
    - intros [H1 [r H2]]. rewrite AT in H2. destruct (F y) as [[a c]|] eqn:EF; [|discriminate]. destruct (row_ok _ _) eqn:ER; [|discriminate]. exists (y, a, c). split; [reflexivity|]. now apply rows_in. }
  set (lo := map (shown_as f) (if exchanged d f then yu else yl)). set (up := map (shown_as f) (if exchanged d f then yl else yu)).
  set (lo' := map (shown_as f) (if exchanged d f then yu' else yl')). set (up' := map (shown_as f) (if exchanged d f then yl' else yu')).
  assert (forall i, (i < length rs)%nat -> at_time (nth i tk 0 + g) = Ok (Some ([nth i lo 0], [nth i up 0]))) as EX.
  { intros i Hi. unfold lo, up. rewrite !(nth_map_any (shown_as f) _ i 0) by (destruct (exchanged d f); lia).
    assert (nth i tk 0 = fst (fst (nth i rs (0, 0, 0))) /\ nth i yl 0 = snd (fst (nth i rs (0, 0, 0))) /\ nth i yu 0 = snd (nth i rs (0, 0, 0))) as (N1 & N2 & N3) by (unfold tk, yl, yu; rewrite !(nth_map_any _ rs i (0, 0, 0)) by exact Hi; auto).
    pose proof (nth_In rs (0, 0, 0) Hi) as Hin. destruct (nth i rs (0, 0, 0)) as [[y a] c]. cbn [fst snd] in *. apply rows_in in Hin as (H1 & H2 & H3).
    rewrite N1, AT, H2, H3, pick_one by assumption. destruct (exchanged d f); rewrite N2, N3; reflexivity. }
  assert (drawn_limit down lo lo' /\ drawn_limit down up up') as [D1 D2] by (unfold lo, up, lo', up'; destruct (exchanged d f); auto).
  set (h := fun t => t + g). assert (increasing (map h t)) as IG by (apply sorted_incl_map; [intros u v _ _ H; unfold h; lra|exact ST]).
  assert (increasing (map h tk)) as IX by (apply sorted_incl_map; [intros u v _ _ H; unfold h; lra|now apply rows_sorted]).
  assert (length t = 200%nat) as LT' by exact LT.
  eexists. exists (map h t), (map h tk), lo, up, lo', up'.
  split; [reflexivity|]. cbn [b_polygon b_line_lower b_line_upper]. split; [rewrite map_length; exact LT|]. split; [exact IG|].
  assert (nth 0 (map h t) 0 = first /\ nth 199 (map h t) 0 = ppf d (1 - / 10 ^ 5)) as [H0 H1].
  { rewrite !(nth_map_any h t _ 0) by (rewrite LT'; apply Nat.ltb_lt; reflexivity). auto. }
  split; [rewrite <- H0; apply nth_In; rewrite map_length, LT'; apply Nat.ltb_lt; reflexivity|]. split; [rewrite <- H1; apply nth_In; rewrite map_length, LT'; apply Nat.ltb_lt; reflexivity|].
  split. { intros x Hx. rewrite <- H0, <- H1. pose proof (in_increasing _ x IG Hx) as Q. rewrite map_length, LT' in Q. exact Q. }
  split; [exact IX|]. split.
  { intros x. rewrite !in_map_iff. split.
    - intros (y & <- & Hy). apply K in Hy as [Q1 Q2]. split; [exists y; auto|exact Q2].
    - intros [(y & <- & Hy) Q2]. exists y. split; [reflexivity|]. apply K. auto. }
  assert (length lo = length (map h tk) /\ length up = length (map h tk)) as [LL LU] by (unfold lo, up; destruct (exchanged d f); rewrite !map_length; lia).
  split; [exact LL|]. split; [exact LU|]. split.
  { intros i Hi. rewrite map_length in Hi. rewrite (nth_map_any h tk i 0) by lia. apply EX. lia. }
  split; [exact D1|]. split; [exact D2|].
  assert (length lo' = length (map h tk) /\ length up' = length (map h tk)) as [LL' LU']. { destruct D1 as [-> _]. destruct D2 as [-> _]. auto. }
  split; [unfold line_no_autoscale, lo', up'; destruct (exchanged d f); auto|].
  assert (forall v, In v (map (shown_as f) yl') \/ In v (map (shown_as f) yu') -> f <> F_CHF -> 0 < v < 1) as PV.
  { assert (forall l l' : list R, (forall v, In v l -> 0 < v < 1) -> drawn_limit true l l' -> forall v, In v l' -> 0 < v < 1) as PD.
    { intros l l' Pl (Ln & _ & [->|(k & Hk & A & B & _)]) v Hv; [now apply Pl|]. apply (In_nth _ _ 0) in Hv as (i & Hi & <-). rewrite Ln in Hi. destruct (Nat.lt_ge_cases i k) as [Q|Q].
      - rewrite A by exact Q. now apply Pl, nth_In.
      - rewrite B by lia. now apply Pl, nth_In. }
    intros v Hv Nf. assert (exists w, v = shown_as f w /\ 0 < w < 1) as (w & -> & Hw).
    { destruct Hv as [(w & <- & Hw)%in_map_iff|(w & <- & Hw)%in_map_iff]; exists w; split; auto; [now apply (PD yl yl')|now apply (PD yu yu')]. }
    destruct f; cbn [shown_as]; [lra|lra|congruence]. }
  intros x y. assert (forall u v, (forall w, In w u \/ In w v -> f <> F_CHF -> 0 < w < 1) -> fill_no_autoscale paper (map h tk) (map h tk) u v = fill_no_autoscale false (map h tk) (map h tk) u v) as PP.
  { intros u v Q. destruct paper; [|reflexivity]. apply C165_paper. intros w Hw. apply Q; auto. }
  rewrite PP by exact PV. 
  assert (length (map (shown_as f) yl') = length (map h tk) /\ length (map (shown_as f) yu') = length (map h tk)) as [M1 M2]. { destruct DL' as [-> _]. destruct DU' as [-> _]. rewrite !map_length. lia. }
  rewrite (C165_reliability (map h tk) (map (shown_as f) yl') (map (shown_as f) yu') x y M1 M2) by (now left).
  unfold lo', up', line_no_autoscale. destruct (exchanged d f); [|reflexivity]. split; intros (p & q & Q1 & Q2 & Q3); exists q, p; (split; [exact Q2|split; [exact Q1|]]); unfold between_heights in *; tauto.
Qed.
Print Assumptions C168_reliability_partial.

(** Nothing is left out: with the covariances of two estimates there are limits on time for every height of the band, except hazards beyond 100. *)
Theorem C168_no_gap gj d s f CI h : valid d -> two_parameters d -> proper_cov s -> / 10 ^ 8 <= h <= match f with F_CHF => 100 | _ => 1 - / 10 ^ 8 end ->
  exists t u, extract_CI gj d (Some s) f T_time CI (Some [h]) None = Ok (Some ([t], [u])).
Proof.
  intros V T Hc Hh. pose proof tiny8 as T8. assert (0 < clean_tol < / 10 ^ 8) as TT. { unfold clean_tol. split; [apply Rinv_0_lt_compat, pow_lt; lra|]. apply Rinv_lt_contravar; [apply Rmult_lt_0_compat; apply pow_lt; lra|]. apply Rlt_pow; [lra|apply Nat.ltb_lt; reflexivity]. }
  assert (exists y, h = shown_as f y /\ clean_tol < y < 1) as (y & -> & Hy).
  { destruct f; [exists (1 - h); cbn [shown_as]; split; [ring|lra]|exists h; cbn [shown_as]; split; [reflexivity|lra]|exists (exp (- h)); cbn [shown_as]; split; [rewrite ln_exp; ring|]].
    split; [|rewrite <- exp_0; apply exp_increasing; lra]. unfold clean_tol. apply Rlt_le_trans with (exp (- (100))); [|apply exp_mono; lra]. rewrite exp_Ropp. apply Rinv_lt_contravar; [apply Rmult_lt_0_compat; [apply exp_pos|apply pow_lt; lra]|].
    replace 100 with (INR 50 * 2) by (cbn [INR]; lra). assert (forall n, exp (INR n * 2) = exp 2 ^ n) as EP. { intros n. induction n as [|n IH]; [cbn [INR pow]; rewrite Rmult_0_l; apply exp_0|]. rewrite S_INR. replace ((INR n + 1) * 2) with (2 + INR n * 2) by ring. rewrite exp_plus, IH. reflexivity. }
    rewrite EP. assert (exp 2 < 10) as E2. { replace 2 with (1 + 1) by ring. rewrite exp_plus. pose proof exp_le_3. pose proof (exp_pos 1). nra. }
    assert (forall n, (0 < n)%nat -> exp 2 ^ n < 10 ^ n) as PW. { intros n. induction n as [|n IH]; [lia|]. intros _. destruct n as [|n]; [cbn [pow]; lra|]. specialize (IH ltac:(lia)). set (u := exp 2 ^ S n) in *. set (v := 10 ^ S n) in *. change (exp 2 ^ S (S n)) with (exp 2 * u). change (10 ^ S (S n)) with (10 * v).
      assert (0 < u) by (apply pow_lt, exp_pos). pose proof (exp_pos 2). nra. }
    apply PW. lia. }
  rewrite extract_time by (auto; lra). unfold time_bounds, v_at. destruct (Rlt_dec 0 y); [|lra]. destruct (Rlt_dec y 1); [|lra].
  assert (forall a b, row_ok (func_name f) (a, b, y, y) = true) as RO. { intros a b. rewrite row_ok_prob by lra. apply row_ok_spec. cbn [q_yl q_yu]. unfold legal_y. change (/ 10 ^ 50) with clean_tol. split; (split; [lra|intros; lra]). }
  assert (forall da db, half_width (Z_of CI) (var_of s da db) = Some (Z_of CI * sqrt (var_of s da db))) as HW. { intros da db. unfold half_width. pose proof (var_nonneg s da db Hc). destruct (Rlt_dec (var_of s da db) 0); [lra|reflexivity]. }
  destruct d; try contradiction; cbn [obind]; rewrite HW; cbn [omap]; rewrite RO; eauto.
Qed.
Print Assumptions C168_no_gap.

Lemma gamma_times a b : band_times (Gamma a b 0) = linspace (/ 10 ^ 4) (ppf (Gamma a b 0) (1 - / 10 ^ 5)) 200.
Proof. unfold band_times. cbv zeta. cbn [ci_gamma]. destruct (Req_EM_T 0 0) as [_|C]; [|lra]. now rewrite !Rminus_0_r. Qed.
Lemma band_x paper gj d s Z f b : reliability_band paper gj d s Z f = Ok b -> forall p, In p (b_line_lower b) \/ In p (b_line_upper b) -> exists t, In t (band_times d) /\ fst p = t + ci_gamma d.
Proof.
  unfold reliability_band. cbv zeta. rewrite (rel_rows (fun t => rel_bounds gj d s Z (t + ci_gamma d))). cbv zeta. cbn [bind]. set (rs := rows _ _ _).
  destruct (without_reversals true _ _) as [yl yu]. intros H. apply (f_equal (fun r => match r with Ok c => c | Err _ => {| b_polygon := []; b_line_lower := []; b_line_upper := [] |} end)) in H. subst b. cbn [b_line_lower b_line_upper]. intros [x y] Hp.
  assert (In x (map (fun t => t + ci_gamma d) (map (fun r : R * R * R => fst (fst r)) rs))) as Hx by (destruct Hp as [Hp|Hp]; exact (in_combine_l _ _ _ _ Hp)).
  apply in_map_iff in Hx as (t & <- & ([[t' a] c] & <- & Hr)%in_map_iff). cbn [fst]. apply rows_in in Hr as (Ht & _ & _). exists t'. auto.
Qed.
Lemma gamma_small : ppf (Gamma (/ 10 ^ 6) 1 0) (1 - / 10 ^ 5) < / 10 ^ 4.
Proof.
  assert (0 < / 10 ^ 6) as P6 by (apply Rinv_0_lt_compat, pow_lt; lra). assert (0 < / 10 ^ 5 < / 2) as T5. { split; [apply Rinv_0_lt_compat, pow_lt; lra|]. apply Rinv_lt_contravar; lra. }
  assert (/ 10 ^ 4 = 100 * / 10 ^ 6) as E4 by field. assert (1 - (1 - / 10 ^ 5) = / 10 ^ 5) as E5 by ring. set (e := / 10 ^ 6) in *. clearbody e.
  assert (ln (/ 10 ^ 5) = - (5 * ln 10)) as L. { rewrite ln_Rinv by (apply pow_lt; lra). rewrite ln_pow by lra. replace (INR 5) with 5 by (cbn [INR]; lra). reflexivity. }
  set (q := / 10 ^ 5) in *. clearbody q.
  assert (valid (Gamma e 1 0)) as V by (repeat split; lra). assert (valid (Exponential (1 / e) 0)) as V' by (split; [apply Rdiv_lt_0_compat; lra|lra]).
  rewrite (ppf_same _ _ V V' (g1_cdf e 0 P6 ltac:(lra)) (1 - q)) by lra. cbn [ppf]. rewrite E5, L.
  assert (ln 10 < 10). { apply exp_lt_inv. rewrite exp_ln by lra. pose proof (exp_ineq1 10 ltac:(lra)). lra. }
  replace (1 / (1 / e)) with e by (field; lra). rewrite E4. nra.
Qed.
Lemma gamma_beyond a b t : ppf (Gamma a b 0) (1 - / 10 ^ 5) < / 10 ^ 4 -> In t (band_times (Gamma a b 0)) -> / 10 ^ 4 <= t \/ ppf (Gamma a b 0) (1 - / 10 ^ 5) <= t.
Proof.
  intros Q Ht. right. rewrite gamma_times in Ht. set (q := ppf _ _) in *. clearbody q. set (e := / 10 ^ 4) in *. clearbody e.
  apply (In_nth _ _ 0) in Ht as (i & Hi & <-). rewrite linspace_length in Hi. rewrite linspace_nth by exact Hi. set (m := INR (200 - 1)).
  assert (0 < m) as Hm by (apply lt_0_INR; apply Nat.ltb_lt; reflexivity). assert (INR i <= m) as Im by (apply le_INR; lia). pose proof (pos_INR i). clearbody m.
  assert (INR i / m <= 1) as W by (apply (Rmult_le_reg_r m); [exact Hm|]; unfold Rdiv; rewrite Rmult_assoc, Rinv_l by lra; lra). replace (INR i * ((q - e) / m)) with (INR i / m * (q - e)) by (field; lra). nra.
Qed.
(** The band on the reliability does not always show the distribution: for a Gamma distribution without location it starts at the time 0.0001
    whatever its scale, and all that is drawn for this one lies beyond its 0.99999 quantile. *)
Theorem C168_range_refuted : exists d, valid d /\ two_parameters d /\ forall paper gj s Z f b, reliability_band paper gj d s Z f = Ok b ->
  forall p, In p (b_line_lower b) \/ In p (b_line_upper b) -> 1 - / 10 ^ 5 <= cdf d (fst p).
Proof.
  assert (valid (Gamma (/ 10 ^ 6) 1 0)) as V. { assert (0 < / 10 ^ 6) by (apply Rinv_0_lt_compat, pow_lt; lra). repeat split; lra. }
  pose proof gamma_small as Q. exists (Gamma (/ 10 ^ 6) 1 0). split; [exact V|]. split; [exact I|]. set (d := Gamma (/ 10 ^ 6) 1 0) in *. assert (forall t, In t (band_times d) -> / 10 ^ 4 <= t \/ ppf d (1 - / 10 ^ 5) <= t) as BT by (intros t; apply gamma_beyond; exact Q). assert (ci_gamma d = 0) as G0 by reflexivity.
  assert (0 < / 10 ^ 5 < / 2) as T5. { split; [apply Rinv_0_lt_compat, pow_lt; lra|]. apply Rinv_lt_contravar; lra. }
  clearbody d.
  intros paper gj s Z f b H p Hp. destruct (band_x paper gj d s Z f b H p Hp) as (t & Ht & ->).
  rewrite G0, Rplus_0_r. destruct (F_ppf d (all_facts d V) (1 - / 10 ^ 5) ltac:(lra)) as [I1 E1]. rewrite <- E1 at 1. apply cdf_incr; [exact V|]. destruct (BT t Ht); lra.
Qed.
Print Assumptions C168_range_refuted.

(** ** A case *)
(** A Weibull distribution with limits at the lowest height of its band. *)
Example C168_case : let d := Weibull 1 1 0 in let s := {| se_a := 1; se_b := 1; cov_ab := 0 |} in valid d /\ two_parameters d /\ proper_cov s /\
  exists t u, extract_CI {| gj_um := fun _ => 0; gj_ub := fun _ => 0; gj_vm := fun _ => 0; gj_vb := fun _ => 0 |} d (Some s) F_CDF T_time (19 / 20) (Some [/ 10 ^ 8]) None = Ok (Some ([t], [u])).
Proof.
  cbv zeta. assert (valid (Weibull 1 1 0)) as V by (cbn; lra). assert (proper_cov {| se_a := 1; se_b := 1; cov_ab := 0 |}) as C by (unfold proper_cov; cbn [se_a se_b cov_ab]; rewrite Rabs_R0; lra).
  split; [exact V|]. split; [exact I|]. split; [exact C|]. apply C168_no_gap; [exact V|exact I|exact C|]. pose proof tiny8 as T8. set (e := / 10 ^ 8) in *. clearbody e. cbv iota. lra.
Qed.
(** A Gamma distribution whose band on the reliability can be drawn. *)
Example C168_case_gamma : let d := Gamma 1 1 0 in valid d /\ two_parameters d /\ / 10 ^ 4 < ppf d (1 - / 10 ^ 5).
Proof.
  cbv zeta. assert (valid (Gamma 1 1 0)) as V by (cbn; lra). split; [exact V|]. split; [exact I|]. assert (valid (Exponential (1 / 1) 0)) as V' by (cbn; lra).
  assert (0 < / 10 ^ 5 < / 2) as T5. { split; [apply Rinv_0_lt_compat, pow_lt; lra|]. apply Rinv_lt_contravar; lra. }
  rewrite (ppf_same _ _ V V' (g1_cdf 1 0 ltac:(lra) ltac:(lra)) (1 - / 10 ^ 5)) by lra. cbn [ppf]. replace (1 - (1 - / 10 ^ 5)) with (/ 10 ^ 5) by ring. rewrite ln_Rinv by (apply pow_lt; lra).
  assert (1 < ln (10 ^ 5)). { apply exp_lt_inv. rewrite exp_ln by (apply pow_lt; lra). pose proof exp_le_3. lra. } assert (/ 10 ^ 4 < 1) by (rewrite <- Rinv_1; apply Rinv_lt_contravar; lra). lra.
Qed.
