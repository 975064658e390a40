(** Tables, the DSZI model and its random samples. *)
From Coquelicot Require Import Coquelicot.
From Coq Require Import List Arith Reals Lra Lia Bool ZArith Sorting.Sorted Permutation.
From Verif Require Import Base RealFacts Gauss Ext RList DistModel DistSpec DistProofs DistProofs2 DistProofs3 DistProofs4 RepairModel RepairProofs CombModel CombSpec CombProofs.
Import ListNotations.
Open Scope R_scope.

(** ** Interpolation in a table *)
Lemma interp_unfold q x0 x1 xs y0 y1 ys : interp q (x0 :: x1 :: xs) (y0 :: y1 :: ys) =
  if Rlt_dec q x0 then y0 else if Rlt_dec q x1 then (y1 - y0) / (x1 - x0) * (q - x0) + y0 else interp q (x1 :: xs) (y1 :: ys).
Proof. reflexivity. Qed.

Lemma between_points q x0 x1 y0 y1 : x0 <= q < x1 -> y0 <= y1 -> y0 <= (y1 - y0) / (x1 - x0) * (q - x0) + y0 <= y1.
Proof.
  intros Hq Hy. replace ((y1 - y0) / (x1 - x0) * (q - x0)) with ((y1 - y0) * ((q - x0) / (x1 - x0))) by (field; lra).
  assert (0 <= (q - x0) / (x1 - x0)) by (apply Rdiv_le_0_compat; lra).
  assert ((q - x0) / (x1 - x0) <= 1) by (apply Rle_div_l; lra). nra.
Qed.

(** For F on a sorted grid X. *)
Lemma interp_table (F : R -> R) q : forall X, X <> [] -> StronglySorted Rle X ->
  let v := interp q (map F X) X in
  (q < F (nth 0 X 0) /\ v = nth 0 X 0) \/
  (exists i, (S i < length X)%nat /\ F (nth i X 0) <= q < F (nth (S i) X 0) /\ nth i X 0 <= v <= nth (S i) X 0) \/
  (F (last X 0) <= q /\ v = last X 0) \/
  (length X = 1%nat /\ v = nth 0 X 0).
Proof.
  induction X as [|x0 X IH]; intros Hne HS; [contradiction|]. destruct X as [|x1 X].
  - right. right. right. split; reflexivity.
  - cbn [map]. rewrite interp_unfold. destruct (Rlt_dec q (F x0)) as [L|L]; [left; split; [exact L|reflexivity]|].
    inversion HS as [|? ? HS' HF]; subst. assert (x0 <= x1) as H01 by now inversion HF.
    destruct (Rlt_dec q (F x1)) as [L1|L1].
    + right. left. exists 0%nat. split; [simpl; lia|]. cbn [nth]. split; [lra|]. apply between_points; lra.
    + specialize (IH ltac:(discriminate) HS'). cbv zeta in IH. cbn [map] in IH.
      destruct IH as [[A _]|[(i & Hi & A & B)|[[A B]|[A B]]]].
      * exfalso. cbn [nth] in A. lra.
      * right. left. exists (S i). split; [simpl in *; lia|]. exact (conj A B).
      * right. right. left. split; [exact A|exact B].
      * right. right. left. destruct X; [|discriminate]. cbn [last nth] in *. split; [lra|exact B].
Qed.

Lemma million : exists k, N.to_nat 1000000 = S (S k) /\ INR (S k) = 999999.
Proof.
  exists (N.to_nat 999998). split; [lia|]. rewrite INR_IZR_INZ.
  replace (Z.of_nat (S (N.to_nat 999998))) with 999999%Z by lia. reflexivity.
Qed.

Lemma grid_length a b : length (table_grid a b) = N.to_nat 1000000.
Proof. unfold table_grid, linspace. now rewrite map_length, seq_length. Qed.
Lemma grid_nth a b i : (i < N.to_nat 1000000)%nat -> nth i (table_grid a b) 0 = a + INR i * ((b - a) / 999999).
Proof.
  intros Hi. unfold table_grid, linspace. destruct million as (k & E & K). rewrite E in *.
  set (f := fun i => a + INR i * ((b - a) / INR (S (S k) - 1))).
  rewrite (nth_indep _ 0 (f 0%nat)) by now rewrite map_length, seq_length.
  rewrite map_nth, seq_nth by exact Hi. unfold f. simpl (0 + i)%nat. replace (S (S k) - 1)%nat with (S k) by lia. now rewrite K.
Qed.
Lemma grid_ne a b : table_grid a b <> [].
Proof. intros E. pose proof (grid_length a b) as L. rewrite E in L. cbn [length] in L. destruct million as (k & E2 & _). rewrite E2 in L. discriminate. Qed.
Lemma grid_first a b : nth 0 (table_grid a b) 0 = a.
Proof. rewrite grid_nth; [simpl; ring|]. destruct million as (k & E & _). rewrite E. lia. Qed.
Lemma last_nth {A} (l : list A) (z : A) : last l z = nth (length l - 1) l z.
Proof. induction l as [|x [|y l] IH]; [reflexivity|reflexivity|]. change (last (x :: y :: l) z) with (last (y :: l) z). rewrite IH. simpl. now rewrite Nat.sub_0_r. Qed.
Lemma grid_last a b : last (table_grid a b) 0 = b.
Proof.
  rewrite last_nth, grid_length. destruct million as (k & E & K). rewrite grid_nth by (rewrite E; lia). rewrite E.
  replace (S (S k) - 1)%nat with (S k) by lia. rewrite K. field.
Qed.
Lemma seq_map_sorted (f : nat -> R) : (forall i j, (i <= j)%nat -> f i <= f j) -> forall n s, StronglySorted Rle (map f (seq s n)).
Proof.
  intros H. induction n as [|n IH]; intros s; simpl; constructor; [apply IH|]. apply Forall_forall. intros y Hy. apply in_map_iff in Hy.
  destruct Hy as (i & <- & Hi). apply in_seq in Hi. apply H. lia.
Qed.
Lemma grid_sorted a b : a <= b -> StronglySorted Rle (table_grid a b).
Proof.
  intros L. unfold table_grid, linspace. apply seq_map_sorted. intros i j Hij. apply le_INR in Hij.
  assert (0 <= (b - a) / INR (N.to_nat 1000000 - 1)).
  { destruct million as (k & E & K). rewrite E. replace (S (S k) - 1)%nat with (S k) by lia. rewrite K. apply Rdiv_le_0_compat; lra. }
  nra.
Qed.
Lemma grid_in a b x : a <= b -> In x (table_grid a b) -> a <= x <= b.
Proof.
  intros L Hx. apply (In_nth _ _ 0) in Hx. destruct Hx as (i & Hi & <-). rewrite grid_length in Hi. rewrite grid_nth by exact Hi.
  assert (0 <= (b - a) / 999999) by (apply Rdiv_le_0_compat; lra). pose proof (pos_INR i).
  assert (INR i <= 999999). { destruct million as (k & E & K). rewrite <- K. apply le_INR. lia. }
  replace b with (a + 999999 * ((b - a) / 999999)) at 2 by field. nra.
Qed.

(** The quantile read from the table lies within one grid step of two points that bracket it. *)
Lemma table_bracket (F : R -> R) a b q : a <= b -> (forall x y, x <= y -> F x <= F y) ->
  let v := interp q (map F (table_grid a b)) (table_grid a b) in
  (q < F a -> v = a) /\ (F b <= q -> v = b) /\
  (F a <= q < F b -> exists l r, a <= l <= v /\ v <= r <= b /\ r - l = (b - a) / 999999 /\ F l <= q < F r).
Proof.
  intros L HF v. assert (length (table_grid a b) <> 1%nat) as N1.
  { rewrite grid_length. destruct million as (k & E & _). rewrite E. discriminate. }
  pose proof (interp_table F q (table_grid a b) (grid_ne a b) (grid_sorted a b L)) as T. cbv zeta in T. fold v in T.
  rewrite grid_first, grid_last in T.
  assert (forall i, (S i < length (table_grid a b))%nat -> a <= nth i (table_grid a b) 0 /\ nth (S i) (table_grid a b) 0 <= b /\
     nth (S i) (table_grid a b) 0 - nth i (table_grid a b) 0 = (b - a) / 999999) as G.
  { intros i Hi. split; [apply (grid_in a b _ L); apply nth_In; lia|]. split; [apply (grid_in a b _ L); apply nth_In; lia|].
    rewrite grid_length in Hi. rewrite !grid_nth by lia. rewrite S_INR. ring. }
  pose proof (HF a b L) as Fab.
  destruct T as [[A T]|[(i & Hi & A & B)|[[A B]|[A _]]]]; [| | |contradiction].
  - split; [intros; exact T|]. split; intros; lra.
  - destruct (G i Hi) as (G1 & G2 & G3). pose proof (HF _ _ G1) as F1. pose proof (HF _ _ G2) as F2.
    split; [intros; lra|]. split; [intros; lra|]. intros _. exists (nth i (table_grid a b) 0), (nth (S i) (table_grid a b) 0). repeat split; lra.
  - split; [intros; lra|]. split; [intros; exact B|]. intros; lra.
Qed.

(** ** The grid of a model *)
Lemma fold_min_le l : forall c v, In v l \/ v = c -> fold_left Rmin l c <= v.
Proof.
  induction l as [|w l IH]; intros c v H; simpl; [destruct H as [[]| ->]; lra|].
  destruct H as [[->|H]| ->].
  - apply Rle_trans with (Rmin c v); [apply IH; now right|apply Rmin_r].
  - apply IH. now left.
  - apply Rle_trans with (Rmin c w); [apply IH; now right|apply Rmin_l].
Qed.
Lemma fold_max_ge l : forall c v, In v l \/ v = c -> v <= fold_left Rmax l c.
Proof.
  induction l as [|w l IH]; intros c v H; simpl; [destruct H as [[]| ->]; lra|].
  destruct H as [[->|H]| ->].
  - apply Rle_trans with (Rmax c v); [apply Rmax_r|apply IH; now right].
  - apply IH. now left.
  - apply Rle_trans with (Rmax c w); [apply Rmax_l|apply IH; now right].
Qed.

Definition lowest (ds : list dist) : R := fold_left Rmin (map (fun d => ppf d tiny) ds) (10 ^ 100).
Definition highest (ds : list dist) : R := fold_left Rmax (map (fun d => ppf d (1 - tiny)) ds) (- 10 ^ 100).

Lemma tiny_range : 0 < tiny < 1 / 2.
Proof. unfold tiny. split; [apply Rinv_0_lt_compat; lra|]. lra. Qed.

Lemma ppf_lt d p q : valid d -> 0 < p < q -> q < 1 -> ppf d p < ppf d q.
Proof.
  intros Hv Hp Hq. destruct (F_ppf d (all_facts d Hv) p) as [I1 E1]; [lra|]. destruct (F_ppf d (all_facts d Hv) q) as [I2 E2]; [lra|].
  apply Rnot_le_lt. intros C. pose proof (cdf_incr d Hv _ _ C). lra.
Qed.

Lemma lowest_highest ds : ds <> [] -> Forall valid ds -> lowest ds <= highest ds.
Proof.
  destruct ds as [|d ds]; [contradiction|]. intros _ Hv. apply Forall_inv in Hv. pose proof tiny_range as T.
  apply Rle_trans with (ppf d tiny); [apply fold_min_le; left; now left|].
  apply Rle_trans with (ppf d (1 - tiny)); [|apply fold_max_ge; left; now left]. left. apply ppf_lt; [exact Hv|lra|lra].
Qed.

Lemma cr_sf_decr ds x y : Forall valid ds -> x <= y -> cr_sf_at ds y <= cr_sf_at ds x.
Proof.
  intros Hv L. unfold cr_sf_at. induction ds as [|d ds IH]; [simpl; lra|]. apply Forall_cons_iff in Hv. destruct Hv as [Hv1 Hv]. specialize (IH Hv).
  cbn [map]. unfold rprod in *. simpl. pose proof (sf_range d x Hv1). pose proof (sf_range d y Hv1).
  assert (sf d y <= sf d x) by (rewrite !(F_sf d (all_facts d Hv1)); pose proof (cdf_incr d Hv1 x y L); lra).
  pose proof (rprod_range _ (sf_all_range ds y Hv)) as P. unfold rprod in P. apply Rmult_le_compat; lra.
Qed.
Lemma mix_cdf_incr x y : x <= y -> forall ds ps, length ps = length ds -> Forall valid ds -> Forall (fun p => 0 <= p) ps -> mix_cdf_at ds ps x <= mix_cdf_at ds ps y.
Proof.
  intros L. induction ds as [|d ds IH]; intros [|p ps] Hl Hv Hp; try discriminate Hl; [unfold mix_cdf_at; simpl; lra|].
  apply Forall_cons_iff in Hv, Hp. destruct Hv as [Hv1 Hv], Hp as [Hp1 Hp]. specialize (IH ps ltac:(simpl in Hl; lia) Hv Hp).
  unfold mix_cdf_at in *. cbn [map dot]. pose proof (cdf_incr d Hv1 x y L). nra.
Qed.

(** ** DSZI *)
Section DSZI.
  Variables DS ZI : R.
  Hypothesis HZ : 0 <= ZI.
  Hypothesis HD : ZI <= DS <= 1.
  Variable d : dist.
  Hypothesis Hv : valid d.

  Lemma dszi_incr x y : x <= y -> dszi_cdf DS ZI d x <= dszi_cdf DS ZI d y.
  Proof. intros L. unfold dszi_cdf. pose proof (cdf_incr d Hv x y L). nra. Qed.
  Lemma dszi_range x : ZI <= dszi_cdf DS ZI d x <= DS.
  Proof. unfold dszi_cdf. pose proof (cdf_range d Hv x). nra. Qed.
  Lemma dszi_lims : is_lim (dszi_cdf DS ZI d) m_infty ZI /\ is_lim (dszi_cdf DS ZI d) p_infty DS.
  Proof.
    pose proof (cdf_is_df d Hv) as D. unfold dszi_cdf. split.
    - pose proof (is_lim_plus' _ _ _ _ _ (is_lim_scal_r _ (DS - ZI) _ _ (df_low _ D)) (is_lim_const ZI m_infty)) as H.
      simpl in H. replace (0 * (DS - ZI) + ZI) with ZI in H by ring. exact H.
    - pose proof (is_lim_plus' _ _ _ _ _ (is_lim_scal_r _ (DS - ZI) _ _ (df_high _ D)) (is_lim_const ZI p_infty)) as H.
      simpl in H. replace (1 * (DS - ZI) + ZI) with DS in H by ring. exact H.
  Qed.
  Lemma dszi_derive x : inside d x -> exists v, dszi_pdf DS ZI d x = Fin v /\ 0 <= v /\ is_derive (dszi_cdf DS ZI d) x v.
  Proof.
    intros Hi. destruct (pdf_real_spec d Hv x Hi) as (E & P & D). exists (pdf_real d x * (DS - ZI)).
    split; [unfold dszi_pdf; rewrite E; reflexivity|]. split; [nra|]. unfold dszi_cdf.
    replace (pdf_real d x * (DS - ZI)) with ((DS - ZI) * pdf_real d x + 0) by ring.
    apply (is_derive_plus (K := R_AbsRing) (V := R_NormedModule) (fun t => cdf d t * (DS - ZI)) (fun _ => ZI)).
    - apply (is_derive_ext (fun t => (DS - ZI) * cdf d t)); [intros; apply Rmult_comm|]. now apply is_derive_scal.
    - exact (is_derive_const (K := R_AbsRing) (V := R_NormedModule) ZI x).
  Qed.
  Lemma dszi_mass a b : inside d a -> inside d b -> a <= b ->
    is_RInt (fun x => match dszi_pdf DS ZI d x with Fin v => v | _ => 0 end) a b (dszi_cdf DS ZI d b - dszi_cdf DS ZI d a).
  Proof.
    intros Ha Hb L. apply (is_RInt_ext (fun x => (DS - ZI) * pdf_real d x)).
    - rewrite Rmin_left, Rmax_right by exact L. intros x Hx. assert (inside d x) as Hi by (apply (inside_between d a b); [exact Ha|exact Hb|lra]).
      destruct (pdf_real_spec d Hv x Hi) as (E & _). unfold dszi_pdf. rewrite E. apply Rmult_comm.
    - replace (dszi_cdf DS ZI d b - dszi_cdf DS ZI d a) with ((DS - ZI) * (cdf d b - cdf d a)) by (unfold dszi_cdf; ring).
      apply (is_RInt_scal (V := R_NormedModule) (pdf_real d) a b (DS - ZI)). now apply pdf_integrates.
  Qed.
  Lemma dszi_mass_total e : 0 < e -> exists a b, inside d a /\ inside d b /\ a <= b /\ DS - ZI - e < dszi_cdf DS ZI d b - dszi_cdf DS ZI d a.
  Proof.
    intros He. destruct (cdf_close d (e / 2) Hv ltac:(lra)) as (a & b & Ia & Ib & L & A & B). exists a, b. repeat split; try assumption; [exact (proj1 Ia)|exact (proj2 Ia)|exact (proj1 Ib)|exact (proj2 Ib)|lra|].
    unfold dszi_cdf. pose proof (cdf_range d Hv a). pose proof (cdf_range d Hv b).
    assert ((DS - ZI) * (1 - (cdf d b - cdf d a)) <= 1 * (1 - (cdf d b - cdf d a))) by (apply Rmult_le_compat_r; lra). lra.
  Qed.

  Lemma grid_ok : array_ok d (dszi_grid d) = true.
  Proof.
    pose proof tiny_range as T. pose proof (ppf_lt d tiny (1 - tiny) Hv ltac:(lra) ltac:(lra)) as L.
    destruct (F_ppf d (all_facts d Hv) tiny ltac:(lra)) as [[I1 _] _]. destruct (F_ppf d (all_facts d Hv) (1 - tiny) ltac:(lra)) as [[_ I2] _].
    unfold dszi_grid. apply array_ok_intro; [apply grid_ne| |].
    - destruct (is_signed d) eqn:S; [now left|right]. intros x Hx. apply (grid_in _ _ x (Rlt_le _ _ L)) in Hx.
      apply Rle_trans with (2 := proj1 Hx). clear Hx L. revert I1. generalize (ppf d tiny). intros u I1.
      destruct d; simpl in Hv, S, I1; try discriminate; lra.
    - destruct (is_beta d) eqn:S; [right|now left]. intros x Hx. apply (grid_in _ _ x (Rlt_le _ _ L)) in Hx.
      apply Rle_trans with (1 := proj2 Hx). revert I2. generalize (ppf d (1 - tiny)). intros u I2.
      destruct d; try discriminate. simpl in I2. lra.
  Qed.

  Lemma dszi_CDF_grid : dszi_CDF DS ZI d (dszi_grid d) = Ok (map (dszi_cdf DS ZI d) (dszi_grid d)).
  Proof. unfold dszi_CDF, CDF. rewrite grid_ok. cbn [bind]. now rewrite map_map. Qed.

  Lemma dszi_interp q :
    let a := ppf d tiny in let b := ppf d (1 - tiny) in let v := interp q (map (dszi_cdf DS ZI d) (dszi_grid d)) (dszi_grid d) in
    (q < dszi_cdf DS ZI d a -> v = a) /\ (dszi_cdf DS ZI d b <= q -> v = b) /\
    (dszi_cdf DS ZI d a <= q < dszi_cdf DS ZI d b -> exists l r, a <= l <= v /\ v <= r <= b /\ r - l = (b - a) / 999999 /\ dszi_cdf DS ZI d l <= q < dszi_cdf DS ZI d r).
  Proof.
    intros a b. unfold dszi_grid. fold a b. pose proof tiny_range as T.
    apply (table_bracket (dszi_cdf DS ZI d) a b q); [|exact dszi_incr]. left. apply ppf_lt; [exact Hv|lra|lra].
  Qed.

  Lemma dszi_quantile_ok q : ZI <= q <= DS -> dszi_quantile DS ZI d q = Ok (interp q (map (dszi_cdf DS ZI d) (dszi_grid d)) (dszi_grid d)).
  Proof.
    intros Hq. unfold dszi_quantile. destruct (Rlt_dec q ZI); [lra|]. destruct (Rlt_dec DS q); [lra|]. now rewrite dszi_CDF_grid.
  Qed.

  Lemma dszi_at_ppf p : 0 < p < 1 -> dszi_cdf DS ZI d (ppf d p) = ZI + p * (DS - ZI).
  Proof. intros Hp. unfold dszi_cdf. destruct (F_ppf d (all_facts d Hv) p Hp) as [_ E]. rewrite E. ring. Qed.

  (** A point with CDF equal to q lies in the same cell, within one step of the result. *)
  Lemma dszi_quantile_close q x : ZI + tiny * (DS - ZI) <= q < ZI + (1 - tiny) * (DS - ZI) -> dszi_cdf DS ZI d x = q ->
    exists v, dszi_quantile DS ZI d q = Ok v /\ Rabs (v - x) <= (ppf d (1 - tiny) - ppf d tiny) / 999999.
  Proof.
    intros Hq Hx. pose proof tiny_range as T. assert (ZI < DS) as HL by nra.
    rewrite dszi_quantile_ok by nra. eexists. split; [reflexivity|].
    destruct (dszi_interp q) as (_ & _ & G). destruct G as (l & r & L & Rr & S & B).
    { rewrite !dszi_at_ppf by lra. lra. }
    assert (x < r). { apply Rnot_le_lt. intros C. apply dszi_incr in C. lra. }
    assert (l <= x).
    { apply Rnot_lt_le. intros C. assert (inside d l) as Il.
      { apply (inside_between d (ppf d tiny) (ppf d (1 - tiny))); [apply (F_ppf d (all_facts d Hv)); lra|apply (F_ppf d (all_facts d Hv)); lra|lra]. }
      destruct (position d x) as [P|[P|P]].
      - pose proof (F_low d (all_facts d Hv) x P) as E. unfold dszi_cdf in Hx. rewrite E in Hx. nra.
      - pose proof (cdf_strict d Hv x l P Il C) as Q. unfold dszi_cdf in *. nra.
      - destruct Il as [_ I2]. assert (Rbar_lt l l) as K; [|simpl in K; lra]. apply Rbar_lt_trans with (supp_hi d); [exact I2|]. apply Rbar_le_lt_trans with x; [exact P|exact C]. }
    rewrite <- S. apply Rabs_le. lra.
  Qed.
End DSZI.

(** ** Random samples *)
Lemma count_three draws : (count DrawZero draws + count DrawFailure draws + count DrawSurvivor draws = length draws)%nat.
Proof. unfold count. induction draws as [|[] draws IH]; simpl; lia. Qed.

Lemma perm_split (f : R -> bool) l : Permutation l (filter (fun x => negb (f x)) l ++ filter f l).
Proof.
  induction l as [|x l IH]; [constructor|]. simpl. destruct (f x); simpl.
  - apply Permutation_trans with (x :: filter (fun x => negb (f x)) l ++ filter f l); [now constructor|]. apply Permutation_middle.
  - now constructor.
Qed.

Lemma truncated t l : Permutation (filter (fun x => negb (Rltb' t x)) l ++ repeat t (length (filter (fun x => Rltb' t x) l))) (map (Rmin t) l).
Proof.
  induction l as [|x l IH]; [constructor|]. simpl. destruct (Rltb' t x) eqn:E; simpl.
  - apply Rltb'_true in E. rewrite Rmin_left by lra. apply Permutation_sym, Permutation_cons_app, Permutation_sym, IH.
  - apply Rltb'_false in E. rewrite Rmin_right by lra. now constructor.
Qed.

Lemma existsb_false_filter {A} (f : A -> bool) l : existsb f l = false -> filter f l = [] /\ filter (fun x => negb (f x)) l = l.
Proof.
  induction l as [|x l IH]; [auto|]. simpl. destruct (f x); [discriminate|]. simpl. intros H. destruct (IH H) as [A1 A2]. now rewrite A1, A2.
Qed.

Lemma no_survivors DS ZI draws : ~ DS < 1 -> Forall (possible DS ZI) draws -> count DrawSurvivor draws = 0%nat.
Proof.
  intros H. unfold count. induction 1 as [|w l Hw _ IH]; [reflexivity|]. destruct w; simpl; [exact IH|exact IH|]. simpl in Hw. contradiction.
Qed.

Lemma random_samples_ok DS ZI t draws oracle number : (number = Z.of_nat (length draws)) ->
  (count DrawFailure draws >= 1)%nat -> (forall n, length (oracle n) = n) -> Forall (possible DS ZI) draws -> DS < 1 ->
  exists f c, dszi_random_samples DS ZI number (Some t) draws oracle = Ok (f, c) /\ (length f + length c = length draws)%nat /\
    Forall (fun x => x <= t) f /\ Forall (fun x => x = t) c /\
    Permutation (f ++ c) (map (Rmin t) (repeat 0 (count DrawZero draws) ++ oracle (count DrawFailure draws)) ++ repeat t (count DrawSurvivor draws)).
Proof.
  intros Hn Hf Ho Hp HD. unfold dszi_random_samples. cbn [bind]. pose proof (count_three draws) as C3.
  assert ((number <? 1)%Z = false) as -> by (apply Z.ltb_ge; lia).
  unfold base_samples. destruct (count DrawFailure draws) as [|k] eqn:Ek; [lia|]. cbn [bind].
  set (fs := repeat 0 (count DrawZero draws) ++ oracle (S k)). destruct (Rlt_dec DS 1); [|contradiction]. cbn [andb].
  assert (length fs = (count DrawZero draws + S k)%nat) as Lf by (unfold fs; now rewrite app_length, repeat_length, Ho).
  assert (Permutation ((filter (fun x => negb (Rltb' t x)) fs) ++ repeat t (count DrawSurvivor draws) ++ repeat t (length (filter (fun x => Rltb' t x) fs)))
      (map (Rmin t) fs ++ repeat t (count DrawSurvivor draws))) as PP.
  { apply Permutation_trans with ((filter (fun x => negb (Rltb' t x)) fs ++ repeat t (length (filter (fun x => Rltb' t x) fs))) ++ repeat t (count DrawSurvivor draws)).
    - rewrite <- app_assoc. apply Permutation_app_head, Permutation_app_comm.
    - apply Permutation_app_tail, truncated. }
  assert (forall n, Forall (fun x => x = t) (repeat t n)) as FR by (intros n; apply Forall_forall; intros x Hx; now apply repeat_spec in Hx).
  assert (Forall (fun x => x <= t) (filter (fun x => negb (Rltb' t x)) fs)) as FL.
  { apply Forall_forall. intros x Hx. apply filter_In in Hx. destruct Hx as [_ Hx]. now apply negb_true_iff, Rltb'_false in Hx. }
  destruct (existsb (fun x => Rltb' t x) fs) eqn:E.
  - eexists; eexists. split; [reflexivity|]. split; [|split; [exact FL|split; [apply Forall_app; split; apply FR|exact PP]]].
    apply Permutation_length in PP. rewrite !app_length, map_length, !repeat_length in *. lia.
  - destruct (existsb_false_filter _ _ E) as [E1 E2]. rewrite E1, E2 in PP. rewrite E2 in FL. cbn [length repeat] in PP. rewrite app_nil_r in PP.
    eexists; eexists. split; [reflexivity|]. split; [|split; [exact FL|split; [apply FR|exact PP]]]. rewrite repeat_length. lia.
Qed.

Lemma random_samples_all DS ZI rct draws oracle number : (number = Z.of_nat (length draws)) ->
  (count DrawFailure draws >= 1)%nat -> (forall n, length (oracle n) = n) -> Forall (possible DS ZI) draws -> ~ DS < 1 ->
  dszi_random_samples DS ZI number rct draws oracle = Ok (repeat 0 (count DrawZero draws) ++ oracle (count DrawFailure draws), []) /\
  length (repeat 0 (count DrawZero draws) ++ oracle (count DrawFailure draws)) = length draws.
Proof.
  intros Hn Hf Ho Hp HD. pose proof (no_survivors DS ZI draws HD Hp) as NS. pose proof (count_three draws) as C3.
  split; [|rewrite app_length, repeat_length, Ho; lia].
  unfold dszi_random_samples. destruct (Rlt_dec DS 1); [contradiction|].
  assert ((number <? 1)%Z = false) as E by (apply Z.ltb_ge; lia). rewrite NS.
  unfold base_samples. destruct (count DrawFailure draws) as [|k] eqn:Ek; [lia|]. destruct rct; cbn [bind]; rewrite E; reflexivity.
Qed.

Lemma random_samples_fail DS ZI t draws oracle number : count DrawFailure draws = 0%nat -> dszi_random_samples DS ZI number (Some t) draws oracle = Err ValueError.
Proof. intros H. unfold dszi_random_samples. cbn [bind]. destruct (number <? 1)%Z; [reflexivity|]. rewrite H. reflexivity. Qed.
