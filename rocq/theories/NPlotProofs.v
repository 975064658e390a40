(** Proofs about the nonparametric plots. *)
From Coq Require Import String.
From Coq Require Import List Arith Reals Bool Lia Lra Permutation Sorted.
From Verif Require Import Base Ext NonparModel NonparSpec NonparProofs NonparProofs2 NonparProofs3 NonparProofs4 NPlotModel NPlotSpec.
Import ListNotations.
Open Scope R_scope.

(** * The points of a curve *)
Definition link (p q : R * R) : Prop := fst p = fst q \/ snd p = snd q.
Definition down (p q : R * R) : Prop := snd q <= snd p.
Fixpoint pts (prev : entry) (es : list entry) : list (R * R) :=
  match es with
  | [] => []
  | e :: r =>
      if Req_EM_T (e_est prev) (e_est e) then (e_time e, e_est e) :: pts e r
      else (e_time e, e_est prev) :: (e_time e, e_est e) :: pts e r
  end.
Lemma step_loop_pts : forall es prev, fst (fst (fst (step_loop prev es))) = map fst (pts prev es) /\ snd (fst (fst (step_loop prev es))) = map snd (pts prev es).
Proof.
  induction es as [|e es IH]; intros prev; [split; reflexivity|]. cbn [step_loop pts]. destruct (IH e) as [H1 H2].
  destruct (step_loop e es) as [[[xs ys] ls] us]. cbn [fst snd] in H1, H2. subst.
  destruct (Req_EM_T _ _); split; reflexivity.
Qed.
Definition all_pts (es : list entry) : list (R * R) :=
  match es with
  | [] => [(0, 1)]
  | e :: r => (0, 1) :: (e_time e, 1) :: (if e_code e then (e_time e, e_est e) :: pts e r else pts e r)
  end.
Lemma step_arrays_pts es : st_x (step_arrays es) = map fst (all_pts es) /\ st_SF (step_arrays es) = map snd (all_pts es).
Proof.
  destruct es as [|e es]; [split; reflexivity|]. unfold step_arrays, all_pts, st_x, st_SF.
  destruct (step_loop_pts es e) as [H1 H2]. destruct (step_loop e es) as [[[xs ys] ls] us]. cbn [fst snd] in H1, H2. subst.
  destruct (e_code e); split; reflexivity.
Qed.

Lemma pts_link : forall es prev t0, Sorted link ((t0, e_est prev) :: pts prev es).
Proof.
  induction es as [|e es IH]; intros prev t0; [repeat constructor|]. cbn [pts]. specialize (IH e (e_time e)).
  destruct (Req_EM_T _ _) as [E|E].
  - constructor; [exact IH|]. constructor. right. exact E.
  - constructor; [constructor; [exact IH|]|]; constructor; [left|right]; reflexivity.
Qed.
Lemma pts_down : forall es prev t0, Sorted (fun a b => b <= a) (map e_est (prev :: es)) -> Sorted down ((t0, e_est prev) :: pts prev es).
Proof.
  induction es as [|e es IH]; intros prev t0 S; [repeat constructor|]. cbn [pts]. cbn [map] in S. inversion S as [|? ? S2 H2]; subst.
  inversion H2; subst. specialize (IH e (e_time e) S2).
  destruct (Req_EM_T _ _) as [E|E].
  - constructor; [exact IH|]. constructor. unfold down; cbn. lra.
  - constructor; [constructor; [exact IH|]|]; constructor; unfold down; cbn; lra.
Qed.
Lemma pts_in : forall es prev p, In p (pts prev es) -> (exists e, In e es /\ fst p = e_time e) /\ (exists e, In e (prev :: es) /\ snd p = e_est e).
Proof.
  induction es as [|e es IH]; intros prev p H; [destruct H|]. cbn [pts] in H.
  assert (In p (pts e es) -> (exists e', In e' (e :: es) /\ fst p = e_time e') /\ (exists e', In e' (prev :: e :: es) /\ snd p = e_est e')) as G.
  { intros H'. destruct (IH e p H') as [(a & A1 & A2) (b & B1 & B2)]. split; [exists a|exists b]; (split; [cbn; auto|assumption]).
 }
  destruct (Req_EM_T _ _); cbn [In] in H.
  - destruct H as [<-|H]; [|auto]. split; exists e; cbn; auto.
  - destruct H as [<-|[<-|H]]; [| |auto].
    + split; [exists e|exists prev]; cbn; auto.
    + split; exists e; cbn; auto.
Qed.
Lemma pts_through : forall es prev e, In e es -> In (e_time e, e_est e) (pts prev es).
Proof.
  induction es as [|e0 es IH]; intros prev e H; [destruct H|]. cbn [pts].
  destruct H as [<-|H]; [|specialize (IH e0 e H)]; destruct (Req_EM_T _ _); cbn; auto.
Qed.
Lemma pts_last : forall es prev t0, es <> [] -> exists pre p e l0 x y,
  prev :: es = pre ++ [p; e] /\ (t0, e_est prev) :: pts prev es = l0 ++ [(x, e_est p); (y, e_est e)].
Proof.
  induction es as [|e es IH]; intros prev t0 N; [congruence|]. destruct es as [|e2 es].
  - exists [], prev, e. cbn [pts]. destruct (Req_EM_T _ _) as [E|E].
    + exists [], t0, (e_time e). split; reflexivity.
    + exists [(t0, e_est prev)], (e_time e), (e_time e). split; reflexivity.
  - destruct (IH e (e_time e) ltac:(discriminate)) as (pre & p & e' & l0 & x & y & H1 & H2).
    cbn [pts] in H2 |- *. destruct (Req_EM_T (e_est prev) (e_est e)).
    + exists (prev :: pre), p, e', ((t0, e_est prev) :: l0), x, y. split; [cbn [app]; now rewrite <- H1|].
      cbn [app]. now rewrite <- H2.
    + exists (prev :: pre), p, e', ((t0, e_est prev) :: (e_time e, e_est prev) :: l0), x, y. split; [cbn [app]; now rewrite <- H1|].
      cbn [app]. now rewrite <- H2.
Qed.

(** What is needed of a curve. *)
Record good (es : list entry) (xs : list R) (ys : list R) (P : list (R * R)) (x y : R) (p q : R) (P0 : list (R * R)) : Prop := {
  g_x : xs = map fst P;
  g_y : ys = map snd P;
  g_first : exists r, P = (0, 1) :: r;
  g_link : Sorted link P;
  g_down : Sorted down P;
  g_x_of : Forall (fun v => fst v = 0 \/ exists e, In e es /\ fst v = e_time e) P;
  g_y_of : Forall (fun v => snd v = 1 \/ exists e, In e es /\ snd v = e_est e) P;
  g_end : P = P0 ++ [(x, p); (y, q)];
  g_p : 0 < p }.

Lemma step_arrays_good es : (2 <= length es)%nat -> non_increasing (1 :: map e_est es) ->
  (forall e, hd_error es = Some e -> e_code e = false -> e_est e = 1) ->
  (forall pre p e, es = pre ++ [p; e] -> 0 < e_est p) ->
  exists pre p e x y P0, es = pre ++ [p; e] /\
  good es (st_x (step_arrays es)) (st_SF (step_arrays es)) (all_pts es) x y (e_est p) (e_est e) P0 /\
  forall e', In e' es -> In (e_time e', e_est e') (all_pts es).
Proof.
  intros L D F0 Pos. destruct (step_arrays_pts es) as [Ex Ey].
  destruct es as [|e0 es]; [cbn in L; lia|].
  destruct (pts_last es e0 (e_time e0)) as (pre & p & e & l0 & x & y & H1 & H2). { destruct es; [cbn in L; lia|discriminate]. }
  specialize (F0 e0 eq_refl). unfold non_increasing in D. apply StronglySorted_Sorted in D. cbn [map] in D.
  inversion D as [|? ? D2 D3]; subst. inversion D3 as [|? ? D4]; subst.
  pose proof (pts_link es e0 (e_time e0)) as K. pose proof (pts_down es e0 (e_time e0) D2) as W.
  assert (exists P0, all_pts (e0 :: es) = P0 ++ (e_time e0, e_est e0) :: pts e0 es /\ (P0 = [(0, 1)] /\ e_est e0 = 1 \/ P0 = [(0, 1); (e_time e0, 1)])) as (P0 & EP & Hc).
  { unfold all_pts. destruct (e_code e0); [exists [(0, 1); (e_time e0, 1)]|exists [(0, 1)]; rewrite (F0 eq_refl)]; auto. }
  exists pre, p, e, x, y, (P0 ++ l0). split; [exact H1|]. split.
  - constructor.
    + exact Ex.
    + exact Ey.
    + exists (tl (all_pts (e0 :: es))). reflexivity.
    + rewrite EP. destruct Hc as [[-> E1]| ->]; cbn [app].
      * constructor; [exact K|]. constructor. right. cbn. now rewrite E1.
      * constructor; [constructor; [exact K|]|]; constructor; [left|right]; reflexivity.
    + rewrite EP. destruct Hc as [[-> E1]| ->]; cbn [app].
      * constructor; [exact W|]. constructor. unfold down; cbn. lra.
      * constructor; [constructor; [exact W|]|]; constructor; unfold down; cbn; lra.
    + rewrite EP. apply Forall_app. split.
      * destruct Hc as [[-> E1]| ->]; repeat apply Forall_cons; try apply Forall_nil; cbn; auto. right; exists e0; cbn; auto.
      * constructor; [right; exists e0; cbn; auto|]. apply Forall_forall. intros v Hv. destruct (pts_in _ _ _ Hv) as [(a & A1 & A2) _].
        right. exists a. cbn; auto.
    + rewrite EP. apply Forall_app. split.
      * destruct Hc as [[-> E1]| ->]; repeat apply Forall_cons; try apply Forall_nil; cbn; auto.
      * constructor; [right; exists e0; cbn; auto|]. apply Forall_forall. intros v Hv. destruct (pts_in _ _ _ Hv) as [_ (a & A1 & A2)].
        right. exists a. auto.
    + rewrite EP, H2, app_assoc. reflexivity.
    + exact (Pos _ _ _ H1).
  - intros e' [<-|H']; rewrite EP; apply in_or_app; right; [left; reflexivity|right]. now apply pts_through.
Qed.

(** * The curve of RankAdjustment *)
Definition pcovers (P : list (R * R)) (t y : R) : Prop :=
  In (t, y) P \/ exists l x0 x1 r, P = l ++ (x0, y) :: (x1, y) :: r /\ x0 <= t <= x1.
Definition flip (p : R * R) : R * R := (fst p, 1 - snd p).
Lemma pcovers_app l P t y : pcovers P t y -> pcovers (l ++ P) t y.
Proof.
  intros [H|(m & x0 & x1 & r & -> & H)]; [left; apply in_or_app; auto|right].
  exists (l ++ m), x0, x1, r. now rewrite <- app_assoc.
Qed.
Definition closing (rows : list row) (v : R) : list (R * R) :=
  if snd (last rows (0, false)) then [] else [(fst (last rows (0, false)), v)].

Lemma sorted_last (rows : list row) r : StronglySorted (fun r s => fst r <= fst s) (r :: rows) -> fst r <= fst (last (r :: rows) (0, false)).
Proof.
  intros S. inversion S as [|? ? _ F]; subst. destruct rows as [|s rows]; [cbn; lra|].
  change (last (r :: s :: rows) (0, false)) with (last (s :: rows) (0, false)).
  rewrite Forall_forall in F. apply F. assert (s :: rows <> []) as N by discriminate.
  destruct (exists_last N) as (l & x & ->). rewrite last_last. apply in_or_app; cbn; auto.
Qed.
Lemma last_cons_def {A} (l : list A) a d : last (a :: l) d = last l a.
Proof. revert a. induction l as [|b l IH]; intros a; [reflexivity|]. change (last (a :: b :: l) d) with (last (b :: l) d). rewrite IH. destruct l; [reflexivity|]. cbn [last]. clear. revert a0. induction l; intros; [reflexivity|]. cbn [last] in *. auto. Qed.

Lemma ra_covers z : forall rows cur ys sf d x0,
  StronglySorted (fun r s => fst r <= fst s) rows -> Forall (fun r => x0 <= fst r) rows -> length ys = n_failed rows ->
  forall e, In e (ra_loop z rows cur ys sf d) ->
  pcovers (map flip ((x0, cur) :: ra_steps cur (combine (failure_times rows) ys) ++ closing rows (last ys cur))) (e_time e) (e_est e).
Proof.
  induction rows as [|[t c] rest IH]; intros cur ys sf d x0 S Fx L e He; [destruct He|].
  inversion S as [|? ? S2 F2]; subst. inversion Fx as [|? ? X1 X2]; subst. cbn [fst] in *.
  assert (rest <> [] -> closing ((t, c) :: rest) = closing rest) as Ecl.
  { intros N. destruct rest; [congruence|]. reflexivity. }
  cbn [ra_loop] in He. destruct c.
  - destruct ys as [|y ys]; [discriminate|]. cbn [hd tl] in He. assert (length ys = n_failed rest) as L2.
    { unfold n_failed in *. cbn in L. congruence. }
    destruct (greenwood _ _ _ _) as [sf' d'].
    change (failure_times ((t, true) :: rest)) with (t :: failure_times rest). cbn [combine ra_steps].
    rewrite last_cons_def.
    destruct He as [<-|He].
    + left. cbn [e_time e_est map flip fst snd app]. cbn. auto.
    + assert (rest <> []) as N by (intros ->; destruct He).
      rewrite (Ecl N). cbn [app map]. apply (pcovers_app [flip (x0, cur); flip (t, cur)]).
      apply (IH y ys sf' d' t S2 F2 L2 e He).
  - change (failure_times ((t, false) :: rest)) with (failure_times rest).
    assert (length ys = n_failed rest) as L2 by exact L.
    destruct He as [<-|He].
    + cbn [e_time e_est]. right. destruct ys as [|y ys].
      * exists [], x0, (fst (last ((t, false) :: rest) (0, false))), [].
        assert (snd (last ((t, false) :: rest) (0, false)) = false) as SL.
        { symmetry in L2. unfold n_failed in L2. destruct (last _ _) as [t' c'] eqn:E. cbn. destruct c'; [|reflexivity]. exfalso.
          assert ((t, false) :: rest <> []) as N by discriminate. destruct (exists_last N) as (l & xx & E2).
          rewrite E2, last_last in E. subst xx. destruct l as [|l0 l]; [cbn in E2; congruence|]. cbn in E2. injection E2 as _ E2.
          rewrite E2, filter_app, app_length in L2. cbn in L2. lia. }
        unfold closing. rewrite SL. rewrite combine_nil. cbn [ra_steps app map flip fst snd last].
        split; [reflexivity|]. split; [exact X1|]. apply (sorted_last rest (t, false) S).
      * destruct (failure_times rest) as [|t1 ts] eqn:Eft.
        { exfalso. pose proof (failure_times_length rest) as Z. rewrite Eft in Z. cbn in Z, L2. lia. }
        exists [], x0, t1. eexists. cbn [combine ra_steps app map flip fst snd]. split; [reflexivity|]. split; [exact X1|].
        assert (In t1 (failure_times rest)) as I by (rewrite Eft; left; reflexivity).
        unfold failure_times in I. apply in_map_iff in I as (r & <- & I). apply filter_In in I as [I _].
        rewrite Forall_forall in F2. exact (F2 r I).
    + assert (rest <> []) as N by (intros ->; destruct He). rewrite (Ecl N). exact (IH cur ys sf d x0 S2 X2 L2 e He).
Qed.

Lemma ra_steps_link : forall xy prev x0, Sorted link ((x0, prev) :: ra_steps prev xy).
Proof.
  induction xy as [|[x y] xy IH]; intros prev x0; [repeat constructor|]. cbn [ra_steps].
  constructor; [constructor; [apply IH|]|]; constructor; [left|right]; reflexivity.
Qed.
Definition up (p q : R * R) : Prop := snd p <= snd q.
Lemma ra_steps_up : forall xy prev x0, StronglySorted Rlt (map snd xy) -> Forall (fun p => prev <= snd p) xy -> Sorted up ((x0, prev) :: ra_steps prev xy).
Proof.
  induction xy as [|[x y] xy IH]; intros prev x0 S F; [repeat constructor|]. cbn [ra_steps]. cbn [map snd] in S.
  inversion S as [|? ? S2 F2]; subst. inversion F as [|? ? G1 G2]; subst. cbn in G1.
  constructor; [constructor; [apply IH; [exact S2|]|]|].
  - rewrite Forall_map in F2. eapply Forall_impl; [|exact F2]. cbn; intros; lra.
  - constructor. exact G1.
  - constructor. unfold up; cbn; lra.
Qed.
Lemma ra_steps_in : forall xy prev p, In p (ra_steps prev xy) -> In (fst p) (map fst xy) /\ (snd p = prev \/ In (snd p) (map snd xy)).
Proof.
  induction xy as [|[x y] xy IH]; intros prev p H; [destruct H|]. cbn [ra_steps In] in H. cbn [map fst snd In].
  destruct H as [<-|[<-|H]]; cbn [fst snd]; auto. destruct (IH y p H) as [A [B|B]]; auto.
Qed.
Lemma Sorted_snoc {A} (R : A -> A -> Prop) : forall l a b, Sorted R (l ++ [a]) -> R a b -> Sorted R (l ++ [a; b]).
Proof.
  induction l as [|x l IH]; intros a b S H; cbn [app] in *; [repeat constructor; assumption|].
  inversion S as [|? ? S2 H2]; subst. constructor; [apply IH; assumption|]. destruct l; cbn in *; inversion H2; constructor; assumption.
Qed.
Lemma Sorted_flip : forall l, Sorted link l -> Sorted link (map flip l).
Proof.
  induction l as [|p l IH]; intros S; [constructor|]. inversion S as [|? ? S2 H2]; subst. cbn [map]. constructor; [auto|].
  destruct l; cbn; constructor. inversion H2 as [|? ? [H|H]]; subst; [left; exact H|right; cbn; now rewrite H].
Qed.
Lemma Sorted_flip_up : forall l, Sorted up l -> Sorted down (map flip l).
Proof.
  induction l as [|p l IH]; intros S; [constructor|]. inversion S as [|? ? S2 H2]; subst. cbn [map]. constructor; [auto|].
  destruct l; cbn; constructor. inversion H2; subst. unfold up, down in *. cbn. lra.
Qed.
Lemma combine_snd {A B} (l : list A) (m : list B) : length l = length m -> map snd (combine l m) = m.
Proof. revert m. induction l; intros [|b m] H; cbn in *; try discriminate; [reflexivity|]. f_equal. apply IHl. lia. Qed.
Lemma combine_fst {A B} (l : list A) (m : list B) : length l = length m -> map fst (combine l m) = l.
Proof. revert m. induction l; intros [|b m] H; cbn in *; try discriminate; [reflexivity|]. f_equal. apply IHl. lia. Qed.
Lemma two_last {A} (l : list A) : (2 <= length l)%nat -> exists l0 a b, l = l0 ++ [a; b].
Proof.
  intros L. assert (l <> []) as N by (intros ->; cbn in L; lia). destruct (exists_last N) as (m & b & ->).
  assert (m <> []) as N2 by (intros ->; cbn in L; lia). destruct (exists_last N2) as (l0 & a & ->).
  exists l0, a, b. now rewrite <- app_assoc.
Qed.

Lemma rank_adjustment_good CI a rows res : a_value a < 1 -> StronglySorted (fun r s => fst r <= fst s) rows -> Forall (fun r => 0 <= fst r) rows ->
  rank_adjustment CI a rows = Ok res ->
  exists P x y p q P0, good (ra_entries res) (ra_x res) (ra_SF res) P x y p q P0 /\
  (snd (last rows (0, false)) = false -> p = q) /\
  forall e, In e (ra_entries res) -> pcovers P (e_time e) (e_est e).
Proof.
  intros Ha Srt Pos H. destruct (rank_adjustment_spec _ _ _ _ Ha H) as (x & y & EP & Hr & _ & _ & HE & _ & _).
  unfold rank_adjustment in H. destruct (np_checks CI _) as [[]|] eqn:E; cbn [bind] in H; [|discriminate].
  apply np_checks_ok in E as [E1 E2]. fold (n_failed rows) in E2. rewrite EP in H. cbn [bind fst snd] in H. injection H as <-.
  destruct (plotting_positions_range _ _ _ _ Ha EP) as [HSy Hy].
  destruct (plotting_positions_johnson _ _ _ _ EP) as (Lx & Ly & _).
  apply sorted_inv in EP as (_ & -> & _).
  unfold ra_build in *; cbn [ra_entries ra_x ra_SF] in *. set (es := ra_loop _ _ _ _ _ _) in *.
  set (Q := (0, 0) :: ra_steps 0 (combine (failure_times rows) y)) in *.
  assert (length (failure_times rows) = length y) as Lxy by lia.
  assert (snd (last Q (0, 0)) = last y 0) as EL by (apply ra_steps_last; exact Lxy).
  set (XY := if snd (last rows (0, false)) then Q else _).
  assert (XY = Q ++ closing rows (last y 0)) as EXY.
  { unfold XY, closing. rewrite EL. destruct (snd (last rows (0, false))); [now rewrite app_nil_r|reflexivity]. }
  assert (length Q = S (2 * n_failed rows)) as LQ.
  { unfold Q. cbn [length]. rewrite ra_steps_length, combine_length, Lxy, Nat.min_id. lia. }
  assert (Q <> []) as NQ by discriminate. destruct (exists_last NQ) as (Q0 & lq & EQ).
  assert (snd lq = last y 0) as Elq by (rewrite <- EL, EQ, last_last; reflexivity).
  assert (Sorted link Q) as KQ by apply ra_steps_link.
  assert (Sorted up Q) as UQ.
  { apply ra_steps_up; [rewrite combine_snd by exact Lxy; exact HSy|]. apply Forall_forall. intros v Hv. destruct v as [u v]. apply in_combine_r in Hv.
    rewrite Forall_forall in Hy. cbn. specialize (Hy _ Hv). lra. }
  assert (forall v, In v Q -> (fst v = 0 \/ In (fst v) (failure_times rows)) /\ (snd v = 0 \/ In (snd v) y)) as IQ.
  { intros v [<-|Hv]; [auto|]. destruct (ra_steps_in _ _ _ Hv) as [A B]. rewrite combine_fst in A by exact Lxy. rewrite combine_snd in B by exact Lxy. auto. }
  assert (forall t, In t (map fst rows) -> exists e, In e es /\ t = e_time e) as IT.
  { intros t Ht. rewrite <- Hr, map_map in Ht. apply in_map_iff in Ht as (e & <- & He). exists e. auto. }
  assert (forall v, In v y -> exists e, In e es /\ 1 - v = e_est e) as IV.
  { intros v Hv. apply (in_map (fun y => 1 - y)) in Hv. rewrite <- (ra_loop_failures (z_of_CI CI) rows 0 y (Fin 0) (Fin 0)) in Hv by lia.
    apply in_map_iff in Hv as (e & <- & He). apply filter_In in He. exists e. tauto. }
  assert (rows <> []) as NR by (intros ->; cbn in E2; lia).
  assert (forall v, In v (map flip XY) -> (fst v = 0 \/ exists e, In e es /\ fst v = e_time e) /\ (snd v = 1 \/ exists e, In e es /\ snd v = e_est e)) as IP.
  { intros v Hv. apply in_map_iff in Hv as (w & <- & Hw). rewrite EXY in Hw. cbn [flip fst snd].
    assert (forall u, In u Q -> snd u = snd w -> 1 - snd w = 1 \/ exists e, In e es /\ 1 - snd w = e_est e) as G2.
    { intros u Hu Eu. destruct (IQ u Hu) as [_ [B|B]]; rewrite Eu in B; [left; rewrite B; ring|right; auto]. }
    apply in_app_or in Hw as [Hw|Hw].
    - split; [|eauto]. destruct (IQ w Hw) as [[A|A] _]; [auto|]. right. apply IT. unfold failure_times in A.
      apply in_map_iff in A as (r & <- & A). apply filter_In in A as [A _]. now apply in_map.
    - unfold closing in Hw. destruct (snd (last rows (0, false))); [destruct Hw|]. destruct Hw as [<-|[]]. cbn [fst snd] in *. split.
      + right. apply IT. destruct (exists_last NR) as (l & b & ->). rewrite last_last. apply in_map. apply in_or_app; cbn; auto.
      + apply (G2 lq); [rewrite EQ; apply in_or_app; cbn; auto|exact Elq]. }
  assert (exists P0 x y p q, map flip XY = P0 ++ [(x, p); (y, q)] /\ (snd (last rows (0, false)) = false -> p = q)) as (P0 & xx & yy & p & q & Eend & Hlast).
  { rewrite EXY. unfold closing. destruct (snd (last rows (0, false))).
    - rewrite app_nil_r. destruct (two_last (map flip Q)) as (P0 & [x1 p1] & [x2 p2] & ->); [rewrite map_length; lia|].
      exists P0, x1, x2, p1, p2. split; [reflexivity|discriminate].
    - rewrite EQ, !map_app, <- app_assoc.
      exists (map flip Q0), (fst lq), (fst (last rows (0, false))), (1 - snd lq), (1 - last y 0). split; [reflexivity|]. now rewrite Elq. }
  assert (Sorted link XY /\ Sorted up XY) as [KX UX].
  { rewrite EXY. unfold closing. destruct (snd (last rows (0, false))); [rewrite app_nil_r; auto|]. rewrite EQ, <- app_assoc. cbn [app].
    split; apply Sorted_snoc; rewrite <- ?EQ; auto; [right|unfold up]; cbn; lra. }
  exists (map flip XY), xx, yy, p, q, P0. split; [constructor|split].
  - rewrite map_map. reflexivity.
  - rewrite map_map. reflexivity.
  - rewrite EXY. unfold Q. cbn [app map]. unfold flip at 1. cbn [fst snd]. rewrite Rminus_0_r. eauto.
  - now apply Sorted_flip.
  - now apply Sorted_flip_up.
  - apply Forall_forall. intros v Hv. apply IP, Hv.
  - apply Forall_forall. intros v Hv. apply IP, Hv.
  - exact Eend.
  - assert (In (xx, p) (map flip XY)) as I by (rewrite Eend; apply in_or_app; cbn; auto). destruct (IP _ I) as [_ [B|(e & He & B)]]; cbn in B; [lra|].
    rewrite Forall_forall in HE. specialize (HE e He). lra.
  - exact Hlast.
  - intros e He. rewrite EXY. apply (ra_covers (z_of_CI CI) rows 0 y (Fin 0) (Fin 0) 0); auto; lia.
Qed.
