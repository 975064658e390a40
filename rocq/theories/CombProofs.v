From Coquelicot Require Import Coquelicot.
From Coq Require Import List Arith Reals Lra Lia Bool ZArith Sorting.Sorted.
From Verif Require Import Base RealFacts Gauss Ext RList DistModel DistSpec DistProofs DistProofs2 DistProofs3 RepairModel CombModel CombSpec.
Import ListNotations.
Open Scope R_scope.

Lemma Rltb'_true x y : Rltb' x y = true <-> x < y.
Proof. unfold Rltb'. destruct (Rlt_dec x y); split; intros; congruence || lra. Qed.
Lemma Rltb'_false x y : Rltb' x y = false <-> y <= x.
Proof. unfold Rltb'. destruct (Rlt_dec x y); split; intros; congruence || lra. Qed.

Lemma negatives_first_tail x X : negatives_first (x :: X) -> negatives_first X.
Proof. intros H i j Hij Hj. apply (H (S i) (S j)); [simpl; lia|exact Hj]. Qed.

Lemma negatives_first_nonneg x X : negatives_first (x :: X) -> 0 <= x -> neg_part (x :: X) = [] /\ nonneg_part (x :: X) = x :: X.
Proof.
  intros H Hx. assert (forall y, In y (x :: X) -> 0 <= y) as Hall.
  { intros y Hy. apply (In_nth _ _ 0) in Hy. destruct Hy as (j & Hj & <-). apply Rnot_lt_le. intros C.
    destruct j as [|j]; [simpl in C; lra|]. specialize (H 0%nat (S j) ltac:(simpl in *; lia) C). simpl in H. lra. }
  clear H Hx. unfold neg_part, nonneg_part. revert Hall. generalize (x :: X). intros L.
  induction L as [|y L IH]; intros Hall; [split; reflexivity|]. simpl.
  assert (Rltb' y 0 = false) as -> by (apply Rltb'_false, Hall; now left). simpl.
  destruct IH as [A B]; [intros; apply Hall; now right|]. now rewrite A, B.
Qed.

Lemma split_signs X : negatives_first X -> X = neg_part X ++ nonneg_part X.
Proof.
  induction X as [|x X IH]; intros H; [reflexivity|].
  destruct (Rlt_le_dec x 0) as [L|L].
  - unfold neg_part, nonneg_part. simpl. rewrite (proj2 (Rltb'_true x 0) L). simpl. f_equal. apply IH. now apply negatives_first_tail with x.
  - destruct (negatives_first_nonneg x X H L) as [A B]. now rewrite A, B.
Qed.

Lemma map_const_repeat {A B} (f : A -> B) c l : (forall x, In x l -> f x = c) -> map f l = repeat c (length l).
Proof. induction l as [|x l IH]; intros H; [reflexivity|]. simpl. rewrite (H x (or_introl eq_refl)), IH; [reflexivity|]. intros; apply H; now right. Qed.

Lemma neg_part_in X x : In x (neg_part X) <-> In x X /\ x < 0.
Proof. unfold neg_part. rewrite filter_In, Rltb'_true. tauto. Qed.
Lemma nonneg_part_in X x : In x (nonneg_part X) <-> In x X /\ 0 <= x.
Proof. unfold nonneg_part. rewrite filter_In, negb_true_iff, Rltb'_false. tauto. Qed.

Lemma hstack_map {B} (f : R -> B) c X : negatives_first X -> (forall x, x < 0 -> f x = c) ->
  repeat c (length (neg_part X)) ++ map f (nonneg_part X) = map f X.
Proof.
  intros H Hf. rewrite (split_signs X H) at 3. rewrite map_app. f_equal. symmetry. apply map_const_repeat.
  intros x Hx. apply Hf. now apply neg_part_in in Hx.
Qed.

Lemma array_ok_intro d X : X <> [] -> (is_signed d = true \/ forall x, In x X -> 0 <= x) -> (is_beta d = false \/ forall x, In x X -> x <= 1) -> array_ok d X = true.
Proof.
  intros Hne H1 H2. unfold array_ok. destruct X as [|x0 X0]; [contradiction|]. set (X := x0 :: X0) in *. clearbody X. apply andb_true_iff. split; apply orb_true_iff.
  - destruct H1 as [H1|H1]; [now left|right]. apply forallb_forall. intros x Hx. apply negb_true_iff, Rltb'_false. auto.
  - destruct H2 as [H2|H2]; [left; now rewrite H2|right]. apply forallb_forall. intros x Hx. apply negb_true_iff, Rltb'_false. auto.
Qed.

(** The array a component is evaluated on. *)
Definition arg (d : dist) (X : list R) : list R := if is_signed d then X else nonneg_part X.
Lemma accepts_array_ok d X : X <> [] -> component_accepts d X -> array_ok d (arg d X) = true.
Proof.
  intros Hne H. unfold arg.
  assert (forall x, In x (nonneg_part X) -> 0 <= x) as HN by (intros x Hx; now apply nonneg_part_in in Hx).
  assert ((exists x, In x X /\ 0 <= x) -> nonneg_part X <> []) as HE.
  { intros (x & Hx & Hx0) C. assert (In x (nonneg_part X)) as I by now apply nonneg_part_in. rewrite C in I. destruct I. }
  destruct d; cbn [is_signed component_accepts] in *; apply array_ok_intro; auto.
  - apply HE, H.
  - right. intros x Hx. apply H. now apply nonneg_part_in in Hx.
Qed.

Section Component.
  Context {A : Type} (below : A) (g : dist -> R -> A) (d : dist) (X : list R).
  Hypothesis Hne : X <> [].
  Hypothesis Hnf : negatives_first X.
  Hypothesis Hacc : component_accepts d X.
  Hypothesis Hbelow : is_signed d = false -> forall x, x < 0 -> g d x = below.

  Lemma component_map (f : dist -> list R -> result (list A)) :
    (array_ok d (arg d X) = true -> f d (arg d X) = Ok (map (g d) (arg d X))) ->
    component below f X d = Ok (map (g d) X).
  Proof.
    intros Hf. specialize (Hf (accepts_array_ok d X Hne Hacc)). unfold component. unfold arg in Hf. destruct (is_signed d) eqn:S; [exact Hf|].
    rewrite Hf. cbn [bind]. f_equal. apply hstack_map; [exact Hnf|now apply Hbelow].
  Qed.
End Component.

Lemma unsigned_low d (x : R) : valid d -> is_signed d = false -> x < 0 -> Rbar_lt x (supp_lo d).
Proof. intros Hv Hs Hx. destruct d; simpl in *; try discriminate; lra. Qed.
Lemma unsigned_sf d x : valid d -> is_signed d = false -> x < 0 -> sf d x = 1.
Proof. intros Hv Hs Hx. apply sf_low; [exact Hv|]. apply Rbar_lt_le. now apply unsigned_low. Qed.
Lemma unsigned_cdf d x : valid d -> is_signed d = false -> x < 0 -> cdf d x = 0.
Proof. intros Hv Hs Hx. apply (F_low d (all_facts d Hv)). apply Rbar_lt_le. now apply unsigned_low. Qed.
Lemma unsigned_pdf d x : valid d -> is_signed d = false -> x < 0 -> pdf d x = Fin 0.
Proof. intros Hv Hs Hx. apply (F_out d (all_facts d Hv)). left. now apply unsigned_low. Qed.

(** What the HF of a component contributes at x. *)
Definition hf_entry (d : dist) (x : R) : ext :=
  if is_signed d then hf_formula d x else if Rlt_dec x 0 then Fin 0
  else if cut_off_family d then (if Rlt_dec 0 (location d) then if Rlt_dec (location d) x then hf_formula d x else Fin 0 else hf_formula d x)
  else hf_formula d x.

Lemma HF_entries d X : valid d -> cut_off_safe d (arg d X) -> array_ok d (arg d X) = true -> HF d (arg d X) = Ok (map (hf_entry d) (arg d X)).
Proof.
  intros Hv Hs Hok. unfold HF. rewrite Hok. f_equal. apply (nth_ext _ _ NaN NaN); [now rewrite thresholded_length, map_length|].
  rewrite thresholded_length. intros i Hi. rewrite thresholded_nth by assumption.
  rewrite (nth_indep (map (hf_entry d) (arg d X)) NaN (hf_entry d 0)) by now rewrite map_length. rewrite map_nth.
  unfold hf_entry. destruct (is_signed d) eqn:S.
  - destruct (cut_off_family d) eqn:C; [|reflexivity]. apply cut_not_signed in C. congruence.
  - pose proof (array_nonneg d (arg d X) i Hok S Hi). destruct (Rlt_dec (nth i (arg d X) 0) 0); [lra|reflexivity].
Qed.

Lemma hf_entry_quotient d x p : valid d -> hazard_defined d x -> pdf d x = Fin p -> hf_entry d x = Fin (p / sf d x).
Proof.
  intros Hv [Hs Hl] Hp. unfold hf_entry.
  assert (cut_off_family d = false \/ location d <= x -> hf_formula d x = Fin (p / sf d x)) as G.
  { intros H. rewrite hf_formula_right by assumption. rewrite Hp. apply ediv_fin. lra. }
  destruct (is_signed d) eqn:S.
  - apply G. left. destruct (cut_off_family d) eqn:C; [|reflexivity]. apply cut_not_signed in C. congruence.
  - destruct (Rlt_dec x 0) as [L|L].
    + rewrite (unsigned_pdf d x Hv S L) in Hp. injection Hp as <-. f_equal. field. lra.
    + destruct (cut_off_family d) eqn:C; [|apply G; now left].
      destruct (Rlt_dec 0 (location d)) as [L0|L0]; [|apply G; right; lra].
      destruct (Rlt_dec (location d) x); [apply G; right; lra|].
      assert (x < location d) as Hlt by (destruct Hl as [Hl|[Hl|Hl]]; [discriminate|lra|lra]).
      rewrite (F_out d (all_facts d Hv) x) in Hp by (left; rewrite supp_lo_location by exact C; exact Hlt).
      injection Hp as <-. f_equal. field. lra.
Qed.

(** ** Accumulation *)
Lemma zip_map {A B C D} (op : B -> C -> D) (f : A -> B) (g : A -> C) X : zip op (map f X) (map g X) = map (fun x => op (f x) (g x)) X.
Proof. induction X as [|x X IH]; [reflexivity|]. simpl. now rewrite IH. Qed.

Lemma accumulate_map {A} (op : A -> A -> A) (get : dist -> result (list A)) (g : dist -> R -> A) X : forall ds (f : R -> A),
  (forall d, In d ds -> get d = Ok (map (g d) X)) ->
  accumulate op get ds (map f X) = Ok (map (fun x => fold_left (fun a d => op a (g d x)) ds (f x)) X).
Proof.
  induction ds as [|d ds IH]; intros f H; [reflexivity|]. cbn [accumulate]. rewrite (H d (or_introl eq_refl)). cbn [bind].
  rewrite zip_map. rewrite IH by (intros; apply H; now right). reflexivity.
Qed.

Lemma fold_mult ds (f : dist -> R) : forall c, fold_left (fun a d => a * f d) ds c = c * rprod (map f ds).
Proof. induction ds as [|d ds IH]; intros c; simpl; [ring|]. rewrite IH. unfold rprod. simpl. ring. Qed.

Lemma fold_eadd ds (h : dist -> ext) (v : dist -> R) : (forall d, In d ds -> h d = Fin (v d)) -> forall c,
  fold_left (fun a d => eadd a (h d)) ds (Fin c) = Fin (c + rsum (map v ds)).
Proof.
  induction ds as [|d ds IH]; intros H c; simpl; [f_equal; ring|]. rewrite (H d (or_introl eq_refl)). simpl.
  rewrite IH by (intros; apply H; now right). f_equal. unfold rsum. simpl. ring.
Qed.

(** ** Competing risks *)
Definition cr_sf_at (ds : list dist) (x : R) : R := rprod (map (fun d => sf d x) ds).
Definition cr_hf_at (ds : list dist) (x : R) : ext := fold_left (fun a d => eadd a (hf_entry d x)) ds (Fin 0).

Lemma comb_check_ok ds X : X <> [] -> (forall x, In x X -> x < 0 -> existsb is_signed ds = true) -> comb_check ds X = Ok tt.
Proof.
  intros Hne H. unfold comb_check. destruct X as [|x0 X0]; [contradiction|]. set (X := x0 :: X0) in *. clearbody X.
  destruct (existsb (fun x => Rltb' x 0) X) eqn:E; [|reflexivity]. apply existsb_exists in E. destruct E as (x & Hx & L). apply Rltb'_true in L.
  now rewrite (H x Hx L).
Qed.

Lemma cr_combine_ok ds X : X <> [] -> Forall valid ds -> negatives_first X -> Forall (fun d => component_accepts d X) ds ->
  Forall (fun d => cut_off_safe d (arg d X)) ds -> (forall x, In x X -> x < 0 -> existsb is_signed ds = true) ->
  cr_combine ds X = Ok {| cr_pdf := map (fun x => nan_to_num (emul (Fin (cr_sf_at ds x)) (cr_hf_at ds x))) X;
    cr_cdf := map (fun x => 1 - cr_sf_at ds x) X; cr_sf := map (cr_sf_at ds) X; cr_hf := map (cr_hf_at ds) X;
    cr_chf := map (fun x => neg_log (cr_sf_at ds x)) X |}.
Proof.
  intros Hne Hv Hn Ha Hc Hs. rewrite Forall_forall in Hv, Ha, Hc. unfold cr_combine. rewrite comb_check_ok by assumption. cbn [bind].
  rewrite (accumulate_map Rmult (component 1 SF X) sf X ds (fun _ => 1)).
  2: { intros d Hd. apply (component_map 1 sf d X Hne Hn (Ha d Hd)); [|unfold SF; now intros ->].
       intros S x Hx. apply unsigned_sf; auto. }
  cbn [bind]. rewrite (accumulate_map eadd (component (Fin 0) HF X) hf_entry X ds (fun _ => Fin 0)).
  2: { intros d Hd. apply (component_map (Fin 0) hf_entry d X Hne Hn (Ha d Hd)); [|intros; apply HF_entries; auto].
       intros S x Hx. unfold hf_entry. rewrite S. destruct (Rlt_dec x 0); [reflexivity|contradiction]. }
  cbn [bind]. rewrite zip_map.
  assert (map (fun x => fold_left (fun a d => a * sf d x) ds 1) X = map (cr_sf_at ds) X) as E.
  { apply map_ext. intros x. rewrite fold_mult. unfold cr_sf_at. ring. }
  f_equal. f_equal.
  - apply map_ext. intros x. rewrite fold_mult, Rmult_1_l. reflexivity.
  - rewrite E, map_map. reflexivity.
  - exact E.
  - rewrite E, map_map. reflexivity.
Qed.

Lemma rprod_range l : Forall (fun v => 0 <= v <= 1) l -> 0 <= rprod l <= 1.
Proof. induction 1 as [|v l H _ IH]; unfold rprod in *; simpl; [lra|nra]. Qed.
Lemma rprod_le_member l v : Forall (fun v => 0 <= v <= 1) l -> In v l -> rprod l <= v.
Proof.
  induction 1 as [|w l H HF IH]; intros []; unfold rprod in *; simpl.
  - subst. pose proof (rprod_range l HF) as R. unfold rprod in R. nra.
  - specialize (IH H0). pose proof (rprod_range l HF) as R. unfold rprod in R. nra.
Qed.
Lemma rprod_pos l : Forall (fun v => 0 < v) l -> 0 < rprod l.
Proof. induction 1; unfold rprod in *; simpl; [lra|now apply Rmult_lt_0_compat]. Qed.

Lemma sf_range d x : valid d -> 0 <= sf d x <= 1.
Proof. intros Hv. rewrite (F_sf d (all_facts d Hv)). pose proof (cdf_range d Hv x). lra. Qed.

Lemma sf_all_range ds x : Forall valid ds -> Forall (fun v => 0 <= v <= 1) (map (fun d => sf d x) ds).
Proof. intros H. apply Forall_map. revert H. apply Forall_impl. intros d Hd. now apply sf_range. Qed.

Lemma cr_sf_le ds x d : Forall valid ds -> In d ds -> 0 <= cr_sf_at ds x <= sf d x.
Proof.
  intros Hv Hd. split; [apply rprod_range; now apply sf_all_range|].
  apply rprod_le_member; [now apply sf_all_range|]. apply in_map_iff. eauto.
Qed.

Lemma cr_hf_sum ds x (p : dist -> R) : Forall valid ds -> (forall d, In d ds -> hazard_defined d x /\ pdf d x = Fin (p d)) ->
  cr_hf_at ds x = Fin (rsum (map (fun d => p d / sf d x) ds)).
Proof.
  intros Hv H. rewrite Forall_forall in Hv. unfold cr_hf_at. rewrite (fold_eadd ds _ (fun d => p d / sf d x)); [f_equal; ring|].
  intros d Hd. destruct (H d Hd). apply hf_entry_quotient; auto.
Qed.

Lemma sf_derive d x : valid d -> inside d x -> is_derive (sf d) x (- pdf_real d x).
Proof.
  intros Hv Hi. apply (is_derive_ext (fun t => 1 - cdf d t)); [intros t; symmetry; apply (F_sf d (all_facts d Hv))|].
  destruct (pdf_real_spec d Hv x Hi) as (_ & _ & D).
  replace (- pdf_real d x) with (0 - pdf_real d x) by ring.
  exact (is_derive_minus (K := R_AbsRing) (V := R_NormedModule) (fun _ => 1) (cdf d) x 0 (pdf_real d x) (is_derive_const (K := R_AbsRing) (V := R_NormedModule) 1 x) D).
Qed.
Lemma inside_sf_pos d x : valid d -> inside d x -> 0 < sf d x.
Proof. intros Hv Hi. rewrite (F_sf d (all_facts d Hv)). pose proof (F_in d (all_facts d Hv) x Hi). lra. Qed.

Lemma cr_sf_derive ds x : Forall valid ds -> Forall (fun d => inside d x) ds ->
  is_derive (cr_sf_at ds) x (- (cr_sf_at ds x * rsum (map (fun d => pdf_real d x / sf d x) ds))).
Proof.
  intros Hv Hi. induction ds as [|d ds IH].
  - unfold cr_sf_at, rprod, rsum. simpl. replace (- (1 * 0)) with 0 by ring. exact (is_derive_const (K := R_AbsRing) (V := R_NormedModule) 1 x).
  - apply Forall_cons_iff in Hv, Hi. destruct Hv as [Hv1 Hv], Hi as [Hi1 Hi]. specialize (IH Hv Hi).
    apply (is_derive_ext (fun t => sf d t * cr_sf_at ds t)); [reflexivity|].
    pose proof (inside_sf_pos d x Hv1 Hi1) as P.
    replace (- (cr_sf_at (d :: ds) x * rsum (map (fun d0 => pdf_real d0 x / sf d0 x) (d :: ds)))) with
      (- pdf_real d x * cr_sf_at ds x + sf d x * - (cr_sf_at ds x * rsum (map (fun d => pdf_real d x / sf d x) ds))).
    + apply (is_derive_mult (K := R_AbsRing) (sf d) (cr_sf_at ds) x); [now apply sf_derive|exact IH|]. intros; apply Rmult_comm.
    + unfold cr_sf_at, rprod, rsum. simpl. field. lra.
Qed.

(** ** Mixture *)
Lemma accumulate_weighted_map {A} (op : A -> A -> A) (scale : R -> A -> A) (get : dist -> result (list A)) (g : dist -> R -> A) X : forall ds ps (f : R -> A),
  length ps = length ds -> (forall d, In d ds -> get d = Ok (map (g d) X)) ->
  accumulate_weighted op scale get ds ps (map f X) = Ok (map (fun x => fold_left (fun a dp => op a (scale (snd dp) (g (fst dp) x))) (combine ds ps) (f x)) X).
Proof.
  induction ds as [|d ds IH]; intros [|p ps] f Hl H; try discriminate Hl; [reflexivity|]. cbn [accumulate_weighted]. rewrite (H d (or_introl eq_refl)). cbn [bind].
  rewrite zip_map. rewrite IH; [reflexivity|simpl in Hl; lia|intros; apply H; now right].
Qed.

Lemma fold_dot : forall ds ps (f : dist -> R) c, length ps = length ds ->
  fold_left (fun a dp => a + f (fst dp) * snd dp) (combine ds ps) c = c + dot ps (map f ds).
Proof.
  induction ds as [|d ds IH]; intros [|p ps] f c Hl; try discriminate Hl; simpl; [ring|]. rewrite IH by (simpl in Hl; lia). ring.
Qed.

Lemma fold_eadd_dot : forall ds ps (h : dist -> ext) (v : dist -> R) c, length ps = length ds -> (forall d, In d ds -> h d = Fin (v d)) ->
  fold_left (fun a dp => eadd a (weight (snd dp) (h (fst dp)))) (combine ds ps) (Fin c) = Fin (c + dot ps (map v ds)).
Proof.
  induction ds as [|d ds IH]; intros [|p ps] h v c Hl H; try discriminate Hl; simpl; [f_equal; ring|].
  rewrite (H d (or_introl eq_refl)). simpl. rewrite (IH ps h v) by ((simpl in Hl; lia) || (intros; apply H; now right)). f_equal. ring.
Qed.

Definition mix_cdf_at (ds : list dist) (ps : list R) (x : R) : R := dot ps (map (fun d => cdf d x) ds).
Definition mix_pdf_at (ds : list dist) (ps : list R) (x : R) : ext :=
  fold_left (fun a dp => eadd a (weight (snd dp) (pdf (fst dp) x))) (combine ds ps) (Fin 0).

Lemma mix_combine_ok ds ps X : X <> [] -> length ps = length ds -> Forall valid ds -> negatives_first X -> Forall (fun d => component_accepts d X) ds ->
  (forall x, In x X -> x < 0 -> existsb is_signed ds = true) ->
  mix_combine ds ps X = Ok {| mix_pdf := map (mix_pdf_at ds ps) X; mix_cdf := map (mix_cdf_at ds ps) X; mix_sf := map (fun x => 1 - mix_cdf_at ds ps x) X;
    mix_hf := map (fun x => ediv (mix_pdf_at ds ps x) (Fin (1 - mix_cdf_at ds ps x))) X; mix_chf := map (fun x => neg_log (1 - mix_cdf_at ds ps x)) X |}.
Proof.
  intros Hne Hl Hv Hn Ha Hs. rewrite Forall_forall in Hv, Ha. unfold mix_combine. rewrite comb_check_ok by assumption. cbn [bind].
  rewrite (accumulate_weighted_map Rplus (fun p y => y * p) (component 0 CDF X) cdf X ds ps (fun _ => 0)); [|exact Hl|].
  2: { intros d Hd. apply (component_map 0 cdf d X Hne Hn (Ha d Hd)); [|unfold CDF; now intros ->].
       intros S x Hx. apply unsigned_cdf; auto. }
  cbn [bind]. rewrite (accumulate_weighted_map eadd weight (component (Fin 0) PDF X) pdf X ds ps (fun _ => Fin 0)); [|exact Hl|].
  2: { intros d Hd. apply (component_map (Fin 0) pdf d X Hne Hn (Ha d Hd)); [|unfold PDF; now intros ->].
       intros S x Hx. apply unsigned_pdf; auto. }
  cbn [bind]. rewrite zip_map.
  assert (forall x, fold_left (fun a dp => a + cdf (fst dp) x * snd dp) (combine ds ps) 0 = mix_cdf_at ds ps x) as E.
  { intros x. rewrite (fold_dot ds ps (fun d => cdf d x)) by exact Hl. unfold mix_cdf_at. ring. }
  rewrite !map_map. f_equal. f_equal; apply map_ext; intros x; rewrite ?E; reflexivity.
Qed.

Lemma dot_bounds lo hi : forall ps vs, length ps = length vs -> Forall (fun p => 0 <= p) ps -> Forall (fun v => lo <= v <= hi) vs ->
  lo * rsum ps <= dot ps vs <= hi * rsum ps.
Proof.
  induction ps as [|p ps IH]; intros [|v vs] Hl Hp Hv; try discriminate Hl; unfold rsum in *; simpl; [lra|].
  apply Forall_cons_iff in Hp, Hv. destruct Hp as [Hp1 Hp], Hv as [Hv1 Hv]. specialize (IH vs ltac:(simpl in Hl; lia) Hp Hv). nra.
Qed.

Lemma mix_pdf_sum ds ps x (p : dist -> R) : length ps = length ds -> (forall d, In d ds -> pdf d x = Fin (p d)) ->
  mix_pdf_at ds ps x = Fin (dot ps (map p ds)).
Proof. intros Hl H. unfold mix_pdf_at. rewrite (fold_eadd_dot ds ps (fun d => pdf d x) p 0 Hl H). f_equal. ring. Qed.

Lemma mix_cdf_derive x : forall ds ps, length ps = length ds -> Forall valid ds -> Forall (fun d => inside d x) ds ->
  is_derive (mix_cdf_at ds ps) x (dot ps (map (fun d => pdf_real d x) ds)).
Proof.
  induction ds as [|d ds IH]; intros [|p ps] Hl Hv Hi; try discriminate Hl.
  - exact (is_derive_const (K := R_AbsRing) (V := R_NormedModule) 0 x).
  - apply Forall_cons_iff in Hv, Hi. destruct Hv as [Hv1 Hv], Hi as [Hi1 Hi].
    specialize (IH ps ltac:(simpl in Hl; lia) Hv Hi). destruct (pdf_real_spec d Hv1 x Hi1) as (_ & _ & D).
    apply (is_derive_ext (fun t => p * cdf d t + mix_cdf_at ds ps t)); [reflexivity|]. cbn [map dot].
    apply (is_derive_plus (K := R_AbsRing) (V := R_NormedModule) (fun t => p * cdf d t) (mix_cdf_at ds ps)); [|exact IH]. now apply is_derive_scal.
Qed.

(** ** What a successful call tells *)
Lemma accumulate_inv {A} (op : A -> A -> A) (get : dist -> result (list A)) : forall ds acc r, accumulate op get ds acc = Ok r -> forall d, In d ds -> exists y, get d = Ok y.
Proof.
  induction ds as [|d0 ds IH]; intros acc r H d []; cbn [accumulate] in H; destruct (get d0) eqn:E; try discriminate; cbn [bind] in H.
  - subst. eauto.
  - eapply IH; eauto.
Qed.
Lemma accumulate_weighted_inv {A} (op : A -> A -> A) (scale : R -> A -> A) (get : dist -> result (list A)) : forall ds ps acc r, accumulate_weighted op scale get ds ps acc = Ok r -> forall d, In d ds -> exists y, get d = Ok y.
Proof.
  induction ds as [|d0 ds IH]; intros [|p ps] acc r H d Hd; try (destruct Hd; fail); cbn [accumulate_weighted] in H; try discriminate; destruct (get d0) eqn:E; try discriminate; cbn [bind] in H.
  destruct Hd as [->|Hd]; [eauto|]. eapply IH; eauto.
Qed.

Lemma component_inv {A} (below : A) (f : dist -> list R -> result (list A)) (g : dist -> R -> A) X d y :
  (forall d Z, f d Z = if array_ok d Z then Ok (map (g d) Z) else Err ValueError) -> component below f X d = Ok y -> array_ok d (arg d X) = true.
Proof.
  intros Hf H. unfold component in H. unfold arg. destruct (is_signed d); [rewrite Hf in H|rewrite Hf in H]; destruct (array_ok d _); try discriminate; reflexivity.
Qed.

Lemma array_ok_accepts d X : array_ok d (arg d X) = true -> component_accepts d X.
Proof.
  unfold array_ok, arg. intros H. destruct (if is_signed d then X else nonneg_part X) as [|z Z] eqn:E; [discriminate|].
  assert (is_signed d = false -> exists x, In x X /\ 0 <= x) as HE.
  { intros S. rewrite S in E. exists z. apply nonneg_part_in. rewrite E. now left. }
  destruct d; cbn [component_accepts is_signed] in *; auto. split; [auto|].
  intros x Hx. destruct (Rlt_le_dec x 0); [lra|]. apply andb_true_iff in H. destruct H as [_ H]. cbn [is_beta negb orb] in H. rewrite <- E in H.
  rewrite forallb_forall in H. specialize (H x (proj2 (nonneg_part_in X x) (conj Hx r))). now apply negb_true_iff, Rltb'_false in H.
Qed.

Lemma comb_check_inv ds X u : comb_check ds X = Ok u -> X <> [] /\ (forall x, In x X -> x < 0 -> existsb is_signed ds = true).
Proof.
  unfold comb_check. destruct X as [|x0 X0]; [discriminate|]. set (X := x0 :: X0). intros H. split; [discriminate|]. intros x Hx L. clearbody X.
  destruct (existsb is_signed ds); [reflexivity|].
  assert (existsb (fun x => Rltb' x 0) X = true) as E by (apply existsb_exists; exists x; split; [exact Hx|now apply Rltb'_true]).
  rewrite E in H. discriminate.
Qed.

Lemma SF_form d Z : SF d Z = if array_ok d Z then Ok (map (sf d) Z) else Err ValueError.
Proof. reflexivity. Qed.
Lemma CDF_form d Z : CDF d Z = if array_ok d Z then Ok (map (cdf d) Z) else Err ValueError.
Proof. reflexivity. Qed.

Lemma cr_accepted ds X o : cr_combine ds X = Ok o -> X <> [] /\ (forall x, In x X -> x < 0 -> existsb is_signed ds = true) /\ Forall (fun d => component_accepts d X) ds.
Proof.
  unfold cr_combine. intros H. destruct (comb_check ds X) as [u|] eqn:C; [|discriminate]. cbn [bind] in H.
  destruct (accumulate Rmult _ ds _) as [s|] eqn:A; [|discriminate]. destruct (comb_check_inv ds X u C) as [N K]. split; [exact N|]. split; [exact K|].
  apply Forall_forall. intros d Hd. destruct (accumulate_inv _ _ _ _ _ A d Hd) as [y Hy]. apply array_ok_accepts. apply (component_inv 1 SF sf X d y SF_form Hy).
Qed.
Lemma mix_accepted ds ps X o : mix_combine ds ps X = Ok o -> X <> [] /\ (forall x, In x X -> x < 0 -> existsb is_signed ds = true) /\ Forall (fun d => component_accepts d X) ds.
Proof.
  unfold mix_combine. intros H. destruct (comb_check ds X) as [u|] eqn:C; [|discriminate]. cbn [bind] in H.
  destruct (accumulate_weighted Rplus _ _ ds _ _) as [s|] eqn:A; [|discriminate]. destruct (comb_check_inv ds X u C) as [N K]. split; [exact N|]. split; [exact K|].
  apply Forall_forall. intros d Hd. destruct (accumulate_weighted_inv _ _ _ _ _ _ _ A d Hd) as [y Hy]. apply array_ok_accepts. apply (component_inv 0 CDF cdf X d y CDF_form Hy).
Qed.

Lemma sorted_negatives_first X : StronglySorted Rle X -> negatives_first X.
Proof.
  induction 1 as [|x X S IH F]; intros i j Hij Hj; [simpl in Hij; lia|]. destruct j as [|j]; [lia|]. simpl in Hij, Hj. destruct i as [|i]; simpl.
  - rewrite Forall_forall in F. specialize (F (nth j X 0) ltac:(apply nth_In; lia)). lra.
  - apply (IH i j); [lia|exact Hj].
Qed.

Lemma sorted_filter f (X : list R) : StronglySorted Rle X -> StronglySorted Rle (filter f X).
Proof.
  induction 1 as [|x X S IH F]; simpl; [constructor|]. destruct (f x); [|exact IH]. constructor; [exact IH|].
  rewrite Forall_forall in *. intros y Hy. apply filter_In in Hy. apply F, Hy.
Qed.
Lemma sorted_arg_safe d X : StronglySorted Rle X -> cut_off_safe d (arg d X).
Proof. intros H. right. right. apply sorted_below_first. unfold arg. destruct (is_signed d); [exact H|]. now apply sorted_filter. Qed.
