(** Combined models that coincide (C118): order of components, equal components, and competing
    risks within one family. *)
From Coquelicot Require Import Coquelicot.
From Coq Require Import List Arith Reals Lra Lia Bool Permutation Sorted.
From Verif Require Import Base RealFacts Gauss Ext RList DistModel DistSpec DistProofs DistProofs2 DistProofs3 DistProofs5
  RepairModel CombModel CombSpec CombProofs.
Import ListNotations.
Open Scope R_scope.

(** ** The order of the components *)
Section Order.
  Context {A : Type} (op : A -> A -> A) (get : dist -> result (list A)).
  Hypothesis Hop : forall a x y, op (op a x) y = op (op a y) x.
  Hypothesis Hget : forall d e, get d = Err e -> e = ValueError.

  Lemma zip_swap : forall acc xs ys, zip op (zip op acc xs) ys = zip op (zip op acc ys) xs.
  Proof. induction acc as [|a acc IH]; intros [|x xs] [|y ys]; simpl; try reflexivity. now rewrite Hop, IH. Qed.
  Lemma accumulate_perm ds ds' : Permutation ds ds' -> forall acc, accumulate op get ds acc = accumulate op get ds' acc.
  Proof.
    induction 1 as [|d ds ds' _ IH|d1 d2 ds|ds ds' ds'' _ IH1 _ IH2]; intros acc; simpl.
    - reflexivity.
    - destruct (get d); simpl; [apply IH|reflexivity].
    - destruct (get d1) eqn:E1, (get d2) eqn:E2; simpl; try reflexivity.
      + now rewrite zip_swap.
      + apply Hget in E1, E2. congruence.
    - now rewrite IH1.
  Qed.
End Order.

Section WeightedOrder.
  Context {A : Type} (op : A -> A -> A) (scale : R -> A -> A) (get : dist -> result (list A)).
  Hypothesis Hop : forall a x y, op (op a x) y = op (op a y) x.
  Hypothesis Hget : forall d e, get d = Err e -> e = ValueError.

  Fixpoint accumulate_pairs (dps : list (dist * R)) (acc : list A) : result (list A) :=
    match dps with
    | [] => Ok acc
    | (d, p) :: dps => let! ys := get d in accumulate_pairs dps (zip (fun a y => op a (scale p y)) acc ys)
    end.
  Lemma accumulate_pairs_eq : forall ds ps acc, length ps = length ds ->
    accumulate_weighted op scale get ds ps acc = accumulate_pairs (combine ds ps) acc.
  Proof.
    induction ds as [|d ds IH]; intros [|p ps] acc H; try discriminate H; [reflexivity|]. simpl. destruct (get d); [|reflexivity]. simpl. apply IH. simpl in H. lia.
  Qed.
  Lemma zip_swap_weighted p q : forall acc xs ys, zip (fun a y => op a (scale p y)) (zip (fun a y => op a (scale q y)) acc xs) ys =
    zip (fun a y => op a (scale q y)) (zip (fun a y => op a (scale p y)) acc ys) xs.
  Proof. induction acc as [|a acc IH]; intros [|x xs] [|y ys]; simpl; try reflexivity. now rewrite Hop, IH. Qed.
  Lemma accumulate_pairs_perm ds ds' : Permutation ds ds' -> forall acc, accumulate_pairs ds acc = accumulate_pairs ds' acc.
  Proof.
    induction 1 as [|[d p] ds ds' _ IH|[d1 p1] [d2 p2] ds|ds ds' ds'' _ IH1 _ IH2]; intros acc; simpl.
    - reflexivity.
    - destruct (get d); simpl; [apply IH|reflexivity].
    - destruct (get d1) eqn:E1, (get d2) eqn:E2; simpl; try reflexivity.
      + now rewrite zip_swap_weighted.
      + apply Hget in E1, E2. congruence.
    - now rewrite IH1.
  Qed.
End WeightedOrder.

Lemma eadd_swap a x y : eadd (eadd a x) y = eadd (eadd a y) x.
Proof. destruct a, x, y; simpl; try reflexivity. f_equal. ring. Qed.
Lemma component_error {A} (below : A) (f : dist -> list R -> result (list A)) X :
  (forall d Z e, f d Z = Err e -> e = ValueError) -> forall d e, component below f X d = Err e -> e = ValueError.
Proof.
  intros H d e. unfold component. destruct (is_signed d); [apply H|]. destruct (f d (nonneg_part X)) eqn:E; [discriminate|]. simpl. intros K. injection K as <-.
  now apply H in E.
Qed.
Lemma SF_error d Z e : SF d Z = Err e -> e = ValueError.
Proof. unfold SF. destruct (array_ok d Z); [discriminate|]. intros H. now injection H. Qed.
Lemma CDF_error d Z e : CDF d Z = Err e -> e = ValueError.
Proof. unfold CDF. destruct (array_ok d Z); [discriminate|]. intros H. now injection H. Qed.
Lemma HF_error d Z e : HF d Z = Err e -> e = ValueError.
Proof. unfold HF. destruct (array_ok d Z); [discriminate|]. intros H. now injection H. Qed.
Lemma PDF_error d Z e : PDF d Z = Err e -> e = ValueError.
Proof. unfold PDF. destruct (array_ok d Z); [discriminate|]. intros H. now injection H. Qed.

Lemma existsb_perm {A} (f : A -> bool) l l' : Permutation l l' -> existsb f l = existsb f l'.
Proof.
  intros P. destruct (existsb f l) eqn:E, (existsb f l') eqn:E'; try reflexivity.
  - apply existsb_exists in E. destruct E as (x & Hx & Fx). rewrite <- E'. symmetry. apply existsb_exists. exists x. split; [now apply (Permutation_in x P)|assumption].
  - apply existsb_exists in E'. destruct E' as (x & Hx & Fx). rewrite <- E. apply existsb_exists. exists x.
    split; [apply (Permutation_in x (Permutation_sym P)); assumption|assumption].
Qed.
Lemma comb_check_perm ds ds' X : Permutation ds ds' -> comb_check ds X = comb_check ds' X.
Proof. intros P. unfold comb_check. destruct X; [reflexivity|]. now rewrite (existsb_perm is_signed ds ds' P). Qed.

Lemma cr_combine_perm ds ds' X : Permutation ds ds' -> cr_combine ds X = cr_combine ds' X.
Proof.
  intros P. unfold cr_combine. rewrite (comb_check_perm ds ds' X P).
  rewrite (accumulate_perm Rmult (component 1 SF X) ltac:(intros; ring) (component_error 1 SF X SF_error) ds ds' P).
  rewrite (accumulate_perm eadd (component (Fin 0) HF X) eadd_swap (component_error (Fin 0) HF X HF_error) ds ds' P). reflexivity.
Qed.
Lemma mix_combine_perm ds ps ds' ps' X : length ps = length ds -> length ps' = length ds' -> Permutation (combine ds ps) (combine ds' ps') ->
  mix_combine ds ps X = mix_combine ds' ps' X.
Proof.
  intros L L' P. unfold mix_combine.
  assert (Permutation ds ds') as Pd.
  { apply (Permutation_map fst) in P. assert (forall (l : list dist) (m : list R), length m = length l -> map fst (combine l m) = l) as F.
    { induction l as [|x l IH]; intros [|y m] H; try discriminate H; [reflexivity|]. simpl. rewrite IH by (simpl in H; lia). reflexivity. }
    now rewrite !F in P. }
  rewrite (comb_check_perm ds ds' X Pd). rewrite !accumulate_pairs_eq by assumption.
  rewrite (accumulate_pairs_perm Rplus (fun p y => y * p) (component 0 CDF X) ltac:(intros; ring) (component_error 0 CDF X CDF_error) _ _ P).
  rewrite (accumulate_pairs_perm eadd weight (component (Fin 0) PDF X) eadd_swap (component_error (Fin 0) PDF X PDF_error) _ _ P). reflexivity.
Qed.

Lemma fold_left_swap_perm {A B} (f : A -> B -> A) : (forall a x y, f (f a x) y = f (f a y) x) -> forall l l', Permutation l l' -> forall a, fold_left f l a = fold_left f l' a.
Proof. intros Hf l l' P. induction P; intros a; simpl; [reflexivity|apply IHP|now rewrite Hf|now rewrite IHP1]. Qed.
Lemma Rmax_assoc_l a b c : Rmax (Rmax a b) c = Rmax a (Rmax b c).
Proof. unfold Rmax. repeat destruct (Rle_dec _ _); lra. Qed.
Lemma comb_grid_perm ds ds' : Permutation ds ds' -> comb_grid ds = comb_grid ds'.
Proof.
  intros P. unfold comb_grid. f_equal; apply fold_left_swap_perm; try (now apply Permutation_map).
  - intros. rewrite <- !Rmin_assoc. f_equal. apply Rmin_comm.
  - intros. rewrite !Rmax_assoc_l. f_equal. apply Rmax_comm.
Qed.

(** ** One component, equal components *)
Lemma array_ok_inv d X : array_ok d X = true -> X <> [] /\ (is_signed d = true \/ forall x, In x X -> 0 <= x) /\ (is_beta d = false \/ forall x, In x X -> x <= 1).
Proof.
  unfold array_ok. destruct X as [|x0 X0]; [discriminate|]. set (X := x0 :: X0). assert (X <> []) by discriminate. clearbody X. intros K.
  apply andb_prop in K. destruct K as [K1 K2]. split; [assumption|]. split.
  - apply orb_prop in K1. destruct K1 as [K1|K1]; [now left|right]. intros x Hx. rewrite forallb_forall in K1. specialize (K1 x Hx).
    unfold Rltb' in K1. destruct (Rlt_dec x 0); [discriminate|lra].
  - apply orb_prop in K2. destruct K2 as [K2|K2]; [left; now apply negb_true_iff|right]. intros x Hx. rewrite forallb_forall in K2. specialize (K2 x Hx).
    unfold Rltb' in K2. destruct (Rlt_dec 1 x); [discriminate|lra].
Qed.
Lemma parts_nonneg X : (forall x, In x X -> 0 <= x) -> nonneg_part X = X /\ neg_part X = [].
Proof.
  induction X as [|x X IH]; intros H; [now split|]. destruct IH as [I1 I2]; [intros; apply H; now right|].
  unfold nonneg_part, neg_part in *. simpl. specialize (H x (or_introl eq_refl)). assert (Rltb' x 0 = false) as -> by now apply Rltb'_false. simpl. rewrite I1, I2. now split.
Qed.
Lemma component_whole {A} (below : A) f X d : array_ok d X = true -> component below f X d = f d X.
Proof.
  intros H. apply array_ok_inv in H. destruct H as (_ & [H|H] & _); unfold component; [now rewrite H|].
  destruct (is_signed d); [reflexivity|]. destruct (parts_nonneg X H) as [-> ->]. simpl. now destruct (f d X).
Qed.
Lemma comb_check_whole d ds X : array_ok d X = true -> comb_check (d :: ds) X = Ok tt.
Proof.
  intros H. apply array_ok_inv in H. destruct H as (Hne & H & _). apply comb_check_ok; [assumption|]. intros x Hx L.
  destruct H as [H|H]; [simpl; now rewrite H|]. specialize (H x Hx). lra.
Qed.

Lemma zip_ones {A} (op : A -> A -> A) u : (forall a, op u a = a) -> forall (X : list R) ys, length ys = length X -> zip op (map (fun _ => u) X) ys = ys.
Proof. intros H. induction X as [|x X IH]; intros [|y ys] L; try discriminate L; [reflexivity|]. simpl. rewrite H, IH by (simpl in L; lia). reflexivity. Qed.
Lemma eadd_0 a : eadd (Fin 0) a = a.
Proof. destruct a; simpl; try reflexivity. f_equal. ring. Qed.

Lemma cr_single d X : valid d -> array_ok d X = true -> exists o, cr_combine [d] X = Ok o /\
  SF d X = Ok (cr_sf o) /\ CDF d X = Ok (cr_cdf o) /\ HF d X = Ok (cr_hf o) /\
  cr_chf o = map neg_log (map (sf d) X) /\ cr_pdf o = zip (fun s h => nan_to_num (emul (Fin s) h)) (map (sf d) X) (thresholded d X (map (hf_formula d) X)).
Proof.
  intros V A. unfold cr_combine. rewrite comb_check_whole by assumption. cbn [bind accumulate]. rewrite !component_whole by assumption.
  unfold SF, CDF, HF. rewrite A. cbn [bind].
  rewrite (zip_ones Rmult 1 Rmult_1_l) by now rewrite map_length.
  rewrite (zip_ones eadd (Fin 0) eadd_0) by now rewrite thresholded_length.
  eexists. split; [reflexivity|]. cbn [cr_sf cr_cdf cr_hf cr_chf cr_pdf]. repeat split.
  f_equal. rewrite map_map. apply map_ext. intros x. pose proof (F_sf d (all_facts d V) x). lra.
Qed.

Lemma cr_single_chf d X o : valid d -> array_ok d X = true -> cut_off_safe d X -> Forall (fun x => 0 < sf d x) X -> cr_combine [d] X = Ok o -> CHF d X = Ok (cr_chf o).
Proof.
  intros V A C P H. destruct (cr_single d X V A) as (o' & H' & _ & _ & _ & E & _). rewrite H in H'. injection H' as <-. rewrite E.
  unfold CHF. rewrite A. f_equal. rewrite map_map. apply (nth_ext _ _ NaN NaN); [now rewrite thresholded_length, map_length|].
  rewrite thresholded_length. intros i Hi. rewrite (CHF_entry d X i V A C Hi).
  - rewrite (nth_indep _ NaN (neg_log (sf d 0))) by now rewrite map_length. rewrite (map_nth (fun x => neg_log (sf d x))). unfold neg_log.
    rewrite Forall_forall in P. specialize (P (nth i X 0) (nth_In X 0 Hi)). destruct (Rlt_dec 0 (sf d (nth i X 0))); [reflexivity|contradiction].
  - rewrite Forall_forall in P. apply P, nth_In, Hi.
Qed.

Lemma fold_same_cdf n : forall ps (v c : R), length ps = n -> forall d : dist, fold_left (fun a dp => a + v * snd dp) (combine (repeat d n) ps) c = c + v * rsum ps.
Proof.
  induction n as [|n IH]; intros [|p ps] v c L d; try discriminate L; unfold rsum in *; simpl; [ring|]. rewrite IH by (simpl in L; lia). simpl. ring.
Qed.
Lemma fold_same_pdf n : forall ps (v : ext), length ps = n -> Forall (fun p => 0 < p) ps -> forall (d : dist) c,
  fold_left (fun a dp => eadd a (weight (snd dp) v)) (combine (repeat d n) ps) (Fin c) =
    match ps with [] => Fin c | _ => match v with Fin x => Fin (c + x * rsum ps) | PInf => PInf | NaN => NaN end end.
Proof.
  intros ps v L P d. assert (forall n ps, length ps = n -> Forall (fun p => 0 < p) ps ->
    fold_left (fun a dp => eadd a (weight (snd dp) PInf)) (combine (repeat d n) ps) PInf = PInf) as HI.
  { clear. induction n as [|n IH]; intros [|p ps] L P; try discriminate L; [reflexivity|]. apply Forall_cons_iff in P. destruct P as [P1 P]. simpl.
    destruct (Rlt_dec 0 p); [|contradiction]. apply IH; [simpl in L; lia|assumption]. }
  assert (forall n ps, length ps = n -> fold_left (fun a dp => eadd a (weight (snd dp) NaN)) (combine (repeat d n) ps) NaN = NaN) as HN.
  { clear. induction n as [|n IH]; intros [|p ps] L; try discriminate L; [reflexivity|]. simpl. apply IH. simpl in L; lia. }
  revert ps L P. induction n as [|n IH]; intros [|p ps] L P c; try discriminate L; [reflexivity|].
  apply Forall_cons_iff in P. destruct P as [P1 P]. simpl in L. simpl. destruct v as [x| |]; simpl.
  - rewrite IH by (lia || assumption). unfold rsum. destruct ps; simpl; f_equal; ring.
  - destruct (Rlt_dec 0 p); [|contradiction]. simpl. apply HI; [lia|assumption].
  - apply HN. lia.
Qed.
Lemma mix_identical d ps X : valid d -> rsum ps = 1 -> Forall (fun p => 0 < p) ps -> array_ok d X = true ->
  exists o, mix_combine (repeat d (length ps)) ps X = Ok o /\ PDF d X = Ok (mix_pdf o) /\ CDF d X = Ok (mix_cdf o) /\ SF d X = Ok (mix_sf o) /\
    mix_hf o = map (fun x => ediv (pdf d x) (Fin (sf d x))) X /\ mix_chf o = map (fun x => neg_log (sf d x)) X.
Proof.
  intros V Hs Hp A. assert (exists p0 ps0, ps = p0 :: ps0) as (p0 & ps0 & Eps) by (destruct ps; [unfold rsum in Hs; simpl in Hs; lra|eauto]).
  assert (comb_check (repeat d (length ps)) X = Ok tt) as Ec by (rewrite Eps; simpl; now apply comb_check_whole).
  unfold mix_combine. rewrite Ec. cbn [bind].
  rewrite (accumulate_weighted_map Rplus (fun p y => y * p) (component 0 CDF X) cdf X (repeat d (length ps)) ps (fun _ => 0));
    [|now rewrite repeat_length|intros d' Hd'; apply repeat_spec in Hd'; subst d'; rewrite component_whole by assumption; unfold CDF; now rewrite A].
  cbn [bind].
  rewrite (accumulate_weighted_map eadd weight (component (Fin 0) PDF X) pdf X (repeat d (length ps)) ps (fun _ => Fin 0));
    [|now rewrite repeat_length|intros d' Hd'; apply repeat_spec in Hd'; subst d'; rewrite component_whole by assumption; unfold PDF; now rewrite A].
  cbn [bind].
  assert (forall dd (c : R) x l, (forall q, In q l -> fst q = dd) -> fold_left (fun a dp => a + cdf (fst dp) x * snd dp) l c = fold_left (fun a (dp : dist * R) => a + cdf dd x * snd dp) l c) as G1.
  { intros dd c x l. revert c. induction l as [|q l IH]; intros c H; [reflexivity|]. simpl. rewrite (H q (or_introl eq_refl)). apply IH. intros; apply H; now right. }
  assert (forall dd c x l, (forall q, In q l -> fst q = dd) -> fold_left (fun a dp => eadd a (weight (snd dp) (pdf (fst dp) x))) l c = fold_left (fun a (dp : dist * R) => eadd a (weight (snd dp) (pdf dd x))) l c) as G2.
  { intros dd c x l. revert c. induction l as [|q l IH]; intros c H; [reflexivity|]. simpl. rewrite (H q (or_introl eq_refl)). apply IH. intros; apply H; now right. }
  assert (forall q, In q (combine (repeat d (length ps)) ps) -> fst q = d) as HQ.
  { intros [d' p'] Hq. apply in_combine_l in Hq. now apply repeat_spec in Hq. }
  eexists. split; [reflexivity|]. cbn [mix_pdf mix_cdf mix_sf mix_hf mix_chf]. unfold PDF, CDF, SF. rewrite A.
  assert (forall x, fold_left (fun a dp => a + cdf (fst dp) x * snd dp) (combine (repeat d (length ps)) ps) 0 = cdf d x) as E1.
  { intros x. rewrite (G1 d) by assumption. rewrite fold_same_cdf by reflexivity. rewrite Hs. ring. }
  assert (forall x, fold_left (fun a dp => eadd a (weight (snd dp) (pdf (fst dp) x))) (combine (repeat d (length ps)) ps) (Fin 0) = pdf d x) as E2.
  { intros x. rewrite (G2 d) by assumption. rewrite fold_same_pdf by (reflexivity || assumption). rewrite Hs. rewrite Eps. destruct (pdf d x); try reflexivity. f_equal. ring. }
  rewrite (map_ext _ _ E1), (map_ext _ _ E2), !map_map, zip_map. repeat split.
  - f_equal. apply map_ext. intros x. apply (F_sf d (all_facts d V)).
  - apply map_ext. intros x. now rewrite (F_sf d (all_facts d V)).
  - apply map_ext. intros x. now rewrite (F_sf d (all_facts d V)).
Qed.

(** ** Competing risks within one family *)
Lemma nonneg_negatives_first X : (forall x, In x X -> 0 <= x) -> negatives_first X.
Proof. intros H i j Hij L. specialize (H (nth j X 0) (nth_In X 0 (proj2 Hij))). lra. Qed.

Lemma rprod_exp (l : list R) : rprod (map exp l) = exp (rsum l).
Proof. induction l as [|a l IH]; unfold rprod, rsum in *; simpl; [now rewrite exp_0|]. now rewrite IH, exp_plus. Qed.
Lemma rsum_scale {A} k (f : A -> R) l : rsum (map (fun a => k * f a) l) = k * rsum (map f l).
Proof. induction l as [|a l IH]; unfold rsum in *; simpl; [ring|]. rewrite IH. ring. Qed.
Lemma rsum_pos_map {A} (f : A -> R) l : l <> [] -> Forall (fun a => 0 < f a) l -> 0 < rsum (map f l).
Proof.
  intros Hne H. induction H as [|a l Ha Hl IH]; [contradiction|]. unfold rsum in *. simpl. destruct l as [|b l]; [simpl; lra|]. specialize (IH ltac:(discriminate)). lra.
Qed.

Section SameShape.
  Variables (b : R) (scales : list R).
  Hypothesis Hb : 0 < b.
  Hypothesis Hne : scales <> [].
  Hypothesis Hs : Forall (fun a => 0 < a) scales.
  Let ds := map (fun a => Weibull a b 0) scales.
  Let T := rsum (map (fun a => Rpower a (- b)) scales).
  Let A := Rpower T (- (1 / b)).
  Let e := Weibull A b 0.

  Lemma T_pos : 0 < T.
  Proof. apply rsum_pos_map; [assumption|]. apply Forall_forall. intros. apply exp_pos. Qed.
  Lemma A_pow : Rpower A (- b) = T.
  Proof. unfold A. rewrite Rpower_mult. replace (- (1 / b) * - b) with 1 by (field; lra). apply Rpower_1, T_pos. Qed.
  Lemma A_pos : 0 < A. Proof. apply exp_pos. Qed.

  Lemma scaled_power x a c : 0 < x -> 0 < a -> Rpower (x / a) c = Rpower x c * Rpower a (- c).
  Proof.
    intros Hx Ha. unfold Rpower, Rdiv. rewrite ln_mult by (assumption || now apply Rinv_0_lt_compat). rewrite ln_Rinv by assumption. rewrite <- exp_plus. f_equal. ring.
  Qed.

  Lemma ss_sf x : 0 <= x -> cr_sf_at ds x = sf e x.
  Proof.
    intros Hx. unfold cr_sf_at, ds. rewrite map_map. cbn [sf]. unfold e. cbn [sf]. rewrite !Rminus_0_r.
    destruct Hx as [Hx|<-].
    - rewrite on_pos_pos by (apply Rdiv_lt_0_compat; [assumption|apply A_pos]). rewrite scaled_power by (assumption || apply A_pos). rewrite A_pow. unfold T.
      rewrite (map_ext_in _ (fun a => exp (- Rpower x b * Rpower a (- b)))).
      + rewrite <- (map_map (fun a => - Rpower x b * Rpower a (- b)) exp), rprod_exp, rsum_scale. f_equal. ring.
      + intros a Ha. rewrite Forall_forall in Hs. specialize (Hs a Ha). rewrite on_pos_pos by now apply Rdiv_lt_0_compat.
        rewrite scaled_power by assumption. f_equal. ring.
    - rewrite on_pos_neg by (unfold Rdiv; rewrite Rmult_0_l; lra). rewrite (map_ext _ (fun _ => 1)).
      + clear. induction scales as [|a l IH]; [reflexivity|]. unfold rprod in *. simpl. rewrite IH. ring.
      + intros a. rewrite on_pos_neg by (unfold Rdiv; rewrite Rmult_0_l; lra). reflexivity.
  Qed.

  Lemma fold_inf l : l <> [] -> fold_left (fun a (_ : R) => eadd a PInf) l (Fin 0) = PInf.
  Proof. destruct l as [|a l]; [contradiction|]. intros _. simpl. induction l as [|c l IH]; [reflexivity|]. simpl. exact IH. Qed.
  Lemma fold_left_map {A0 B0 C0} (f : A0 -> C0 -> A0) (g : B0 -> C0) l : forall a, fold_left f (map g l) a = fold_left (fun a b => f a (g b)) l a.
  Proof. induction l; intros; simpl; auto. Qed.
  Lemma fold_left_ext_in {A0 B0} (f g : A0 -> B0 -> A0) l : (forall a b, In b l -> f a b = g a b) -> forall a, fold_left f l a = fold_left g l a.
  Proof. induction l as [|x l IH]; intros H a; [reflexivity|]. simpl. rewrite H by now left. apply IH. intros; apply H; now right. Qed.
  Lemma ss_hf x : 0 <= x -> cr_hf_at ds x = hf_formula e x.
  Proof.
    intros Hx. unfold cr_hf_at, ds, e. rewrite fold_left_map. unfold hf_entry. cbn [is_signed cut_off_family location hf_formula]. destruct (Rlt_dec x 0); [lra|].
    destruct (Rlt_dec 0 0); [lra|]. rewrite Forall_forall in Hs. rewrite Rminus_0_r. destruct Hx as [Hx|<-].
    - rewrite (fold_left_ext_in _ (fun a a0 => eadd a (Fin (b * Rpower x (b - 1) * Rpower a0 (- b))))).
      + rewrite <- (fold_left_map eadd (fun a0 => Fin (b * Rpower x (b - 1) * Rpower a0 (- b)))).
        assert (forall l c, fold_left eadd (map (fun a0 => Fin (b * Rpower x (b - 1) * Rpower a0 (- b))) l) (Fin c) = Fin (c + b * Rpower x (b - 1) * rsum (map (fun a => Rpower a (- b)) l))) as ->.
        { induction l as [|a l IH]; intros c; [unfold rsum; simpl; f_equal; ring|]. cbn [map fold_left eadd]. rewrite IH. unfold rsum. simpl. f_equal. ring. }
        fold T. unfold npow. destruct (Rlt_dec 0 (x / A)) as [P|P]; [|exfalso; apply P, Rdiv_lt_0_compat; [assumption|apply A_pos]]. simpl. f_equal.
        rewrite scaled_power by (assumption || apply A_pos). rewrite <- A_pow. replace (- (b - 1)) with (- b + 1) by ring. rewrite Rpower_plus, Rpower_1 by apply A_pos. pose proof A_pos. field. lra.
      + intros c a Ha. specialize (Hs a Ha). f_equal. rewrite ?Rminus_0_r. unfold npow. destruct (Rlt_dec 0 (x / a)) as [P|P]; [|exfalso; now apply P, Rdiv_lt_0_compat]. simpl. f_equal.
        rewrite scaled_power by assumption. replace (- (b - 1)) with (- b + 1) by ring. rewrite Rpower_plus, Rpower_1 by assumption. field. lra.
    - replace (0 / A) with 0 by (field; apply Rgt_not_eq, A_pos).
      rewrite (fold_left_ext_in _ (fun a a0 => eadd a (escale (b / a0) (npow 0 (b - 1))))).
      2:{ intros c a Ha. specialize (Hs a Ha). rewrite ?Rminus_0_r. replace (0 / a) with 0 by (field; lra). reflexivity. }
      unfold npow. destruct (Rlt_dec 0 0); [lra|]. destruct (Req_EM_T 0 0); [|lra].
      assert (forall v, fold_left (fun a a0 => eadd a (Fin (b / a0 * v))) scales (Fin 0) = Fin (v * b * rsum (map (fun a => / a) scales))) as F.
      { intros v. rewrite <- (fold_left_map eadd (fun a0 => Fin (b / a0 * v))).
        assert (forall l c, fold_left eadd (map (fun a0 => Fin (b / a0 * v)) l) (Fin c) = Fin (c + v * b * rsum (map (fun a => / a) l))) as ->; [|f_equal; ring].
        induction l as [|a l IH]; intros c; [unfold rsum; simpl; f_equal; ring|]. cbn [map fold_left eadd]. rewrite IH. unfold rsum. simpl. f_equal. unfold Rdiv. ring. }
      destruct (Rlt_dec 0 (b - 1)); [|destruct (Req_EM_T (b - 1) 0)]; cbn [escale].
      + rewrite F. f_equal. ring.
      + rewrite F. f_equal. assert (b = 1) as Eb by lra. replace (b / A * 1) with (/ A) by (rewrite Eb; field; apply Rgt_not_eq, A_pos).
        pose proof A_pow as AP. rewrite Eb in AP. rewrite Rpower_Ropp, Rpower_1 in AP by apply A_pos. rewrite AP. unfold T. rewrite Eb, !Rmult_1_l. f_equal.
        apply map_ext_in. intros a Ha. rewrite Rpower_Ropp, Rpower_1 by now apply Hs. reflexivity.
      + now apply fold_inf.
  Qed.
End SameShape.

Lemma exp_sf_at ls x : 0 <= x -> Forall (fun l => 0 < l) ls -> ls <> [] ->
  cr_sf_at (map (fun l => Exponential l 0) ls) x = sf (Exponential (rsum ls) 0) x.
Proof.
  intros Hx Hl Hne. assert (forall l, 0 < l -> sf (Exponential l 0) x = exp (- x * l)) as E.
  { intros l L. cbn [sf]. rewrite Rminus_0_r. destruct Hx as [Hx|<-].
    - rewrite on_pos_pos by (apply Rdiv_lt_0_compat; [assumption|apply Rdiv_lt_0_compat; lra]). f_equal. field. lra.
    - rewrite on_pos_neg by (unfold Rdiv; rewrite Rmult_0_l; lra). rewrite Ropp_0, Rmult_0_l, exp_0. reflexivity. }
  rewrite E by (rewrite <- (map_id ls); now apply rsum_pos_map). unfold cr_sf_at. rewrite map_map. rewrite Forall_forall in Hl.
  rewrite (map_ext_in _ (fun l => exp (- x * l))) by (intros l Hin; apply E, Hl, Hin).
  rewrite <- (map_map (fun l => - x * l) exp), rprod_exp, rsum_scale, map_id. reflexivity.
Qed.
Lemma exp_hf_at ls x : 0 <= x -> cr_hf_at (map (fun l => Exponential l 0) ls) x = Fin (rsum ls).
Proof.
  intros Hx. unfold cr_hf_at. rewrite fold_left_map. unfold hf_entry. cbn [is_signed cut_off_family location hf_formula]. destruct (Rlt_dec x 0); [lra|].
  destruct (Rlt_dec 0 0); [lra|]. rewrite <- (fold_left_map eadd (fun l => Fin l)).
  assert (forall l c, fold_left eadd (map (fun a => Fin a) l) (Fin c) = Fin (c + rsum l)) as ->; [|f_equal; ring].
  induction l as [|a l IH]; intros c; [unfold rsum; simpl; f_equal; ring|]. cbn [map fold_left eadd]. rewrite IH. unfold rsum. simpl. f_equal. ring.
Qed.

(** Models whose SF and HF are those of one distribution, at the points of X, have its arrays. *)
Lemma cr_like ds e X : valid e -> is_signed e = false -> is_beta e = false -> X <> [] -> (forall x, In x X -> 0 <= x) -> Forall valid ds ->
  Forall (fun d => component_accepts d X) ds -> Forall (fun d => cut_off_safe d (arg d X)) ds -> location e = 0 -> (forall x, 0 < sf e x) ->
  (forall x, 0 <= x -> cr_sf_at ds x = sf e x) -> (forall x, 0 <= x -> cr_hf_at ds x = hf_formula e x) ->
  exists o, cr_combine ds X = Ok o /\ SF e X = Ok (cr_sf o) /\ CDF e X = Ok (cr_cdf o) /\ HF e X = Ok (cr_hf o) /\ CHF e X = Ok (cr_chf o) /\
    ((forall x, In x X -> exists p, pdf e x = Fin p) -> PDF e X = Ok (map Fin (cr_pdf o))).
Proof.
  intros V Sg Bt Hne HX Hv Ha Hc L0 Pos Es Eh.
  assert (array_ok e X = true) as A by (apply array_ok_true; auto).
  rewrite (cr_combine_ok ds X Hne Hv (nonneg_negatives_first X HX) Ha Hc).
  2:{ intros x Hx L. specialize (HX x Hx). lra. }
  eexists. split; [reflexivity|]. cbn [cr_sf cr_cdf cr_hf cr_chf cr_pdf]. unfold SF, CDF, HF, CHF, PDF. rewrite A. rewrite !thresholded_zero by assumption.
  repeat split.
  - f_equal. apply map_ext_in. intros x Hx. now rewrite Es by now apply HX.
  - f_equal. apply map_ext_in. intros x Hx. rewrite Es by now apply HX. pose proof (F_sf e (all_facts e V) x). lra.
  - f_equal. apply map_ext_in. intros x Hx. now rewrite Eh by now apply HX.
  - f_equal. apply map_ext_in. intros x Hx. rewrite Es by now apply HX. unfold neg_log. specialize (Pos x) as P. destruct (Rlt_dec 0 (sf e x)); [|contradiction].
    apply chf_formula_right; try assumption. right. rewrite L0. now apply HX.
  - intros HP. f_equal. rewrite map_map. apply map_ext_in. intros x Hx. rewrite Es, Eh by now apply HX. destruct (HP x Hx) as (p & Ep). rewrite Ep.
    rewrite hf_formula_right by (try assumption; try (apply Pos); right; rewrite L0; now apply HX). rewrite Ep. specialize (Pos x).
    rewrite ediv_fin by lra. simpl. f_equal. field. lra.
Qed.

Lemma perm_combine_l (ds : list dist) (ps : list R) ds' ps' : length ps = length ds -> length ps' = length ds' ->
  Permutation (combine ds ps) (combine ds' ps') -> Permutation ds ds'.
Proof.
  intros L L' P. apply (Permutation_map fst) in P. assert (forall (l : list dist) (m : list R), length m = length l -> map fst (combine l m) = l) as F.
  { induction l as [|x l IH]; intros [|y m] H; try discriminate H; [reflexivity|]. simpl. rewrite IH by (simpl in H; lia). reflexivity. }
  now rewrite !F in P.
Qed.
Lemma zip_nth {A B C} (f : A -> B -> C) da db dc : forall l m i, length m = length l -> (i < length l)%nat -> nth i (zip f l m) dc = f (nth i l da) (nth i m db).
Proof.
  induction l as [|a l IH]; intros [|b m] i L Hi; simpl in *; try lia. destruct i as [|i]; [reflexivity|]. apply IH; lia.
Qed.
Lemma cr_single_pdf d X i p : valid d -> array_ok d X = true -> (i < length X)%nat -> cut_off_safe d X -> hazard_defined d (nth i X 0) -> pdf d (nth i X 0) = Fin p ->
  nth i (zip (fun s h => nan_to_num (emul (Fin s) h)) (map (sf d) X) (thresholded d X (map (hf_formula d) X))) 0 = p.
Proof.
  intros V A Hi C [Hs Hl] Hp. rewrite (zip_nth _ (sf d 0) NaN) by (rewrite ?thresholded_length, ?map_length; lia).
  rewrite map_nth. rewrite (HF_entry d X i V A C Hi) by assumption. rewrite Hp, ediv_fin by lra. simpl. field. lra.
Qed.
