(** Property C165, continued: the band of an exponential distribution. *)
From Coquelicot Require Import Coquelicot.
From Coq Require Import String.
From Coq Require Import List Arith Reals Lra Lia Bool Sorted.
From Verif Require Import Base RealFacts Ext ConvertModel DistModel DistSpec DistProofs CIModel CISpec CIProofs CIProofs2 BandModel BandSpec BandProps.
Import ListNotations.
Open Scope R_scope.

Lemma sorted_increasing l : StronglySorted Rlt l -> increasing l.
Proof.
  induction 1 as [|a l S IH F]; intros i j [A B]; cbn [length] in B; [lia|]. destruct j as [|j]; [lia|]. destruct i as [|i].
  - cbn. rewrite Forall_forall in F. apply F, nth_In. lia.
  - cbn. apply IH. lia.
Qed.
Lemma increasing_never l : increasing l -> never_decreases l.
Proof. intros H i j [A B]. destruct (Nat.eq_dec i j) as [->|N]; [lra|]. left. apply H. lia. Qed.
Lemma sorted_filter (f : R -> bool) l : StronglySorted Rlt l -> StronglySorted Rlt (filter f l).
Proof.
  induction 1 as [|a l S IH F]; cbn; [constructor|]. destruct (f a); [|exact IH]. constructor; [exact IH|]. rewrite Forall_forall in *. intros x Hx.
  apply filter_In in Hx. apply F. tauto.
Qed.
Lemma sorted_map (f : R -> R) l : (forall x y, x < y -> f x < f y) -> StronglySorted Rlt l -> StronglySorted Rlt (map f l).
Proof.
  intros M. induction 1 as [|a l S IH F]; cbn; constructor; [exact IH|]. rewrite Forall_forall in *. intros x Hx. apply in_map_iff in Hx. destruct Hx as (y & <- & Hy). apply M. now apply F.
Qed.
Lemma sorted_seq (f : nat -> R) n s : (forall i j, (i < j)%nat -> f i < f j) -> StronglySorted Rlt (map f (seq s n)).
Proof.
  intros M. revert s. induction n as [|n IH]; intros s; cbn; constructor; [apply IH|]. rewrite Forall_forall. intros x Hx. apply in_map_iff in Hx. destruct Hx as (k & <- & Hk).
  apply in_seq in Hk. apply M. lia.
Qed.
Lemma geomspace_sorted a b n : 0 < a < b -> (2 <= n)%nat -> StronglySorted Rlt (geomspace a b n).
Proof.
  intros H Hn. apply sorted_seq. intros i j Hij. apply Rmult_lt_compat_l; [lra|]. apply Rpower_lt.
  - apply (Rmult_lt_reg_r a); [lra|]. unfold Rdiv. rewrite Rmult_assoc, Rinv_l by lra. lra.
  - apply Rmult_lt_compat_r; [|now apply lt_INR]. apply Rinv_0_lt_compat. apply lt_0_INR. lia.
Qed.
Lemma geomspace_pos a b n t : 0 < a -> In t (geomspace a b n) -> 0 < t.
Proof. intros H Ht. apply in_map_iff in Ht. destruct Ht as (i & <- & _). apply Rmult_lt_0_compat; [exact H|]. apply exp_pos. Qed.

Definition drawable (pt : string) (f g : R -> R) (t : R) : bool := row_ok pt (t, t, f t, g t).
Lemma clean_map (f g : R -> R) t pt :
  clean_CI_arrays (map Some t) (map Some t) (map Some (map f t)) (map Some (map g t)) pt false false
  = Ok (filter (drawable pt f g) t, filter (drawable pt f g) t, map f (filter (drawable pt f g) t), map g (filter (drawable pt f g) t)).
Proof.
  rewrite (clean_rows pt _ _ _ _ false false (map (fun t => (t, t, f t, g t)) t)).
  - cbv zeta. rewrite !andb_false_r. assert (filter (row_ok pt) (map (fun t => (t, t, f t, g t)) t) = map (fun t => (t, t, f t, g t)) (filter (drawable pt f g) t)) as ->.
    { induction t as [|a t IH]; [reflexivity|]. cbn [map filter]. unfold drawable at 1. destruct (row_ok pt (a, a, f a, g a)); cbn [map]; now rewrite IH. }
    rewrite !map_map. cbn [q_xl q_xu q_yl q_yu]. now rewrite map_id.
  - induction t as [|a t IH]; [reflexivity|]. cbn [map keep_finite read bind tl]. rewrite IH. reflexivity.
Qed.

Lemma curve_exponential l g f t : 0 < l -> 0 < t -> curve (Exponential l g) f (t + g) =
  match f with F_CDF => 1 - exp (- l * t) | F_SF => exp (- l * t) | F_CHF => - ln (exp (- l * t)) end.
Proof.
  intros Hl Ht. assert ((t + g - g) / (1 / l) = l * t) as E by (field; lra). assert (0 < l * t) as P by now apply Rmult_lt_0_compat.
  assert (- l * t = - (l * t)) as E' by ring. unfold curve, cdf, sf, on_pos. rewrite E, E'. destruct (Rlt_dec 0 (l * t)); destruct f; try reflexivity; lra.
Qed.
Lemma combine_map {A B C} (f : A -> B) (g : A -> C) l : combine (map f l) (map g l) = map (fun x => (f x, g x)) l.
Proof. induction l as [|a l IH]; [reflexivity|]. cbn. now rewrite IH. Qed.
Lemma chord_start a b : chord a b (fst a) = snd a.
Proof. unfold chord. ring. Qed.

(** For every fitted exponential distribution: the band is drawn at increasing times after gamma. Its edges are the functions with the
    lower and with the upper limit of Lambda, and the region is what lies between them; the function itself is between them. *)
Theorem C165_exponential paper f l g SE Z : valid (Exponential l g) -> 0 <= SE -> 0 <= Z -> (paper = true -> f <> F_CHF) ->
  let lower := Exponential (l * exp (- Z * (SE / l))) g in let upper := Exponential (l * exp (Z * (SE / l))) g in
  exists b xs, exponential_band paper f l g SE Z = Ok b /\ increasing xs /\ (forall x, In x xs -> g < x) /\
    b_line_lower b = map (fun x => (x, curve lower f x)) xs /\ b_line_upper b = map (fun x => (x, curve upper f x)) xs /\
    (forall x y, inside (x, y) (b_polygon b) <-> exists h k, height (b_line_lower b) x h /\ height (b_line_upper b) x k /\ between_heights h k y) /\
    (forall u x x' v y, xs = u ++ x :: x' :: v -> (inside (x, y) (b_polygon b) <-> between_heights (curve lower f x) (curve upper f x) y)) /\
    (forall x, In x xs -> Rmin (curve lower f x) (curve upper f x) <= curve (Exponential l g) f x <= Rmax (curve lower f x) (curve upper f x)).
Proof.
  intros V HS HZ HP lower upper. destruct V as [Hl Hg]. destruct (lambda_order l SE Z Hl HS HZ) as (P & A & B).
  set (ll := l * exp (- Z * (SE / l))) in *. set (lu := l * exp (Z * (SE / l))) in *.
  unfold exponential_band. cbv zeta. fold ll lu. set (t := geomspace _ _ 200).
  assert (StronglySorted Rlt t /\ forall x, In x t -> 0 < x) as [TS TP].
  { assert (0 < / 10 ^ 5 < / 2) as Hp. { split; [apply Rinv_0_lt_compat, pow_lt; lra|]. apply Rinv_lt_contravar; lra. }
    assert (forall q, ppf (Exponential l g) q - g = - ln (1 - q) * (1 / l)) as PP by (intros q; cbn [ppf]; ring).
    assert (0 < 1 / l) as I by (apply Rdiv_lt_0_compat; lra).
    assert (0 < ppf (Exponential l g) (/ 10 ^ 5) - g) as Q.
    { rewrite PP. apply Rmult_lt_0_compat; [|exact I]. pose proof (ln_increasing (1 - / 10 ^ 5) 1 ltac:(lra) ltac:(lra)) as K. rewrite ln_1 in K. lra. }
    split; [apply geomspace_sorted; [split; [exact Q|]|apply leb_complete; reflexivity]|intros x; now apply geomspace_pos].
    rewrite !PP. apply Rmult_lt_compat_r; [exact I|]. apply Ropp_lt_contravar. apply ln_increasing; lra. }
  clearbody t. rewrite (clean_map (fun t => exp (- ll * t)) (fun t => exp (- lu * t)) t (func_name f)). cbn [bind].
  set (o := filter _ t). assert (StronglySorted Rlt o) as OS by now apply sorted_filter.
  assert (forall x, In x o -> 0 < x) as OP. { intros x Hx. apply filter_In in Hx. apply TP. tauto. }
  assert (forall k, 0 < k -> no_reverse_finite true (map (fun t => exp (- k * t)) o) = map (fun t => exp (- k * t)) o) as NR.
  { intros k Hk. apply no_reverse_decreasing. rewrite (map_ext (fun t => exp (- k * t)) (fun t => exp (- k * (t - 0)))); [|intros; f_equal; ring].
    apply exp_decreasing; [lra|]. now apply increasing_never, sorted_increasing. }
  assert (forall (c : bool) k, 0 < k -> (if c then no_reverse_finite true (map (fun t => exp (- k * t)) o) else map (fun t => exp (- k * t)) o) = map (fun t => exp (- k * t)) o) as NR'
    by (intros [] k Hk; [now apply NR|reflexivity]).
  rewrite !NR' by lra. set (xs := map (fun t => t + g) o).
  assert (forall k, 0 < k -> map (match f with F_CDF => fun v => 1 - v | F_SF => fun v => v | F_CHF => fun v => - ln v end) (map (fun t => exp (- k * t)) o) = map (curve (Exponential k g) f) xs) as YY.
  { intros k Hk. unfold xs. rewrite !map_map. apply map_ext_in. intros x Hx. rewrite curve_exponential by (auto; lra). destruct f; reflexivity. }
  rewrite !YY by lra. fold lower upper.
  assert (increasing xs) as XI. { apply sorted_increasing, sorted_map; [intros; lra|exact OS]. }
  assert (forall x, In x xs -> g < x) as XG. { intros x Hx. apply in_map_iff in Hx. destruct Hx as (y & <- & Hy). specialize (OP y Hy). lra. }
  eexists. exists xs. split; [reflexivity|]. cbn [b_polygon b_line_lower b_line_upper]. split; [exact XI|]. split; [exact XG|].
  assert (forall h : R -> R, line_no_autoscale xs (map h xs) = map (fun x => (x, h x)) xs) as LN.
  { intros h. unfold line_no_autoscale. rewrite <- (map_id xs) at 1. apply combine_map. }
  split; [apply LN|]. split; [apply LN|].
  assert (fill_no_autoscale paper xs xs (map (curve lower f) xs) (map (curve upper f) xs) = fill_no_autoscale false xs xs (map (curve lower f) xs) (map (curve upper f) xs)) as ->.
  { destruct paper; [|reflexivity]. apply C165_paper. intros y Hy.
    assert (forall k, 0 < k -> In y (map (curve (Exponential k g) f) xs) -> 0 < y < 1) as K.
    { intros k Hk Hin. unfold xs in Hin. rewrite map_map in Hin. apply in_map_iff in Hin. destruct Hin as (x & <- & Hx). specialize (OP x Hx). rewrite curve_exponential by lra.
      assert (0 < exp (- k * x) < 1) as E. { split; [apply exp_pos|]. rewrite <- exp_0. apply exp_increasing. pose proof (Rmult_lt_0_compat _ _ Hk OP). lra. }
      destruct f; [lra|lra|now destruct (HP eq_refl)]. }
    destruct Hy as [Hy|Hy]; revert Hy; apply K; lra. }
  assert (forall x y, inside (x, y) (fill_no_autoscale false xs xs (map (curve lower f) xs) (map (curve upper f) xs)) <->
     exists h k, height (line_no_autoscale xs (map (curve lower f) xs)) x h /\ height (line_no_autoscale xs (map (curve upper f) xs)) x k /\ between_heights h k y) as RG.
  { intros x y. apply C165_reliability; [apply map_length|apply map_length|now left]. }
  split; [exact RG|]. split.
  - intros u x x' v y E. rewrite RG. rewrite !LN.
    assert (x < x') as XX. { specialize (XI (length u) (S (length u))). rewrite E, app_length in XI. cbn [length] in XI. specialize (XI ltac:(lia)).
      rewrite !app_nth2 in XI by lia. rewrite Nat.sub_diag in XI. replace (S (length u) - length u)%nat with 1%nat in XI by lia. exact XI. }
    assert (forall h : R -> R, height (map (fun x => (x, h x)) xs) x (h x)) as HH.
    { intros h. exists (map (fun x => (x, h x)) u), (x, h x), (x', h x'), (map (fun x => (x, h x)) v). split; [rewrite E, map_app; reflexivity|].
      split; [left; cbn; lra|]. symmetry. apply (chord_start (x, h x)). }
    assert (forall h : R -> R, monotone_x (map (fun x => (x, h x)) xs)) as MX.
    { intros h. left. rewrite map_map. cbn. now rewrite map_id. }
    split.
    + intros (h & k & H1 & H2 & H3). now rewrite (monotone_unique _ _ _ _ (MX _) (HH (curve lower f)) H1), (monotone_unique _ _ _ _ (MX _) (HH (curve upper f)) H2).
    + intros H. exists (curve lower f x), (curve upper f x). auto.
  - intros x Hx. apply in_map_iff in Hx. destruct Hx as (s & <- & Hs). specialize (OP s Hs). unfold lower, upper. rewrite !curve_exponential by lra.
    assert (exp (- lu * s) <= exp (- l * s) <= exp (- ll * s)) as [E1 E2] by (split; apply exp_mono; nra).
    destruct f.
    + rewrite Rmin_left, Rmax_right; lra.
    + rewrite Rmin_right, Rmax_left; lra.
    + rewrite !ln_exp. rewrite Rmin_left, Rmax_right; nra.
Qed.
Print Assumptions C165_exponential.
Example C165_exponential_case : valid (Exponential (1 / 100) 5) /\ 0 <= 1 / 1000 /\ 0 <= 196 / 100.
Proof. cbn. lra. Qed.
