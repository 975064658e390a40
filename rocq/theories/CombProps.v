(** Properties C53-C57, C93 and C94: competing risks, mixture and DSZI models. *)
From Coquelicot Require Import Coquelicot.
From Coq Require Import List Arith Reals Lra Lia Bool ZArith Sorting.Sorted Permutation.
From Verif Require Import Base RealFacts Gauss Ext RList DistModel DistSpec DistProofs DistProofs2 DistProofs3 DistProofs4 DistProps RepairModel RepairProofs CombModel CombSpec CombProofs CombProofs2.
Import ListNotations.
Open Scope R_scope.

Lemma nth_map_r {A} (f : R -> A) (X : list R) i z : (i < length X)%nat -> nth i (map f X) z = f (nth i X 0).
Proof. intros Hi. rewrite (nth_indep _ z (f 0)) by now rewrite map_length. apply map_nth. Qed.

(** ** C53 *)
Lemma cr_entries ds X o : Forall valid ds -> negatives_first X -> Forall (fun d => cut_off_safe d (arg d X)) ds -> cr_combine ds X = Ok o ->
  length (cr_sf o) = length X /\ length (cr_hf o) = length X /\ length (cr_pdf o) = length X /\
  forall i, (i < length X)%nat -> let x := nth i X 0 in
    nth i (cr_sf o) 0 = rprod (map (fun d => sf d x) ds) /\ nth i (cr_cdf o) 0 = 1 - nth i (cr_sf o) 0 /\
    (forall d, In d ds -> 0 <= nth i (cr_sf o) 0 <= sf d x) /\
    (forall p, (forall d, In d ds -> hazard_defined d x /\ pdf d x = Fin (p d)) ->
       nth i (cr_hf o) NaN = Fin (rsum (map (fun d => p d / sf d x) ds)) /\
       nth i (cr_pdf o) 0 = rsum (map (fun d => p d / sf d x) ds) * nth i (cr_sf o) 0 /\
       nth i (cr_chf o) NaN = Fin (- ln (nth i (cr_sf o) 0))).
Proof.
  intros Hv Hn Hc H. destruct (cr_accepted ds X o H) as (A1 & A2 & A3).
  rewrite (cr_combine_ok ds X A1 Hv Hn A3 Hc A2) in H. apply Ok_inj in H. subst o. cbn [cr_sf cr_hf cr_pdf cr_cdf cr_chf].
  rewrite !map_length. split; [reflexivity|]. split; [reflexivity|]. split; [reflexivity|]. intros i Hi. cbv zeta. rewrite !nth_map_r by exact Hi.
  split; [reflexivity|]. split; [reflexivity|]. split.
  - intros d Hd. now apply cr_sf_le.
  - intros p Hp. rewrite (cr_hf_sum ds _ p Hv Hp). cbn [emul nan_to_num]. split; [reflexivity|]. split; [ring|].
    unfold neg_log. assert (0 < cr_sf_at ds (nth i X 0)) as P.
    { apply rprod_pos. apply Forall_map, Forall_forall. intros d Hd. apply (Hp d Hd). }
    destruct (Rlt_dec 0 (cr_sf_at ds (nth i X 0))); [reflexivity|contradiction].
Qed.

(** For an increasing array of x; see C53_unordered_refuted for the others. *)
Lemma cr_entries_sorted ds X o : Forall valid ds -> StronglySorted Rle X -> cr_combine ds X = Ok o ->
  length (cr_sf o) = length X /\ length (cr_hf o) = length X /\ length (cr_pdf o) = length X /\
  forall i, (i < length X)%nat -> let x := nth i X 0 in
    nth i (cr_sf o) 0 = rprod (map (fun d => sf d x) ds) /\ nth i (cr_cdf o) 0 = 1 - nth i (cr_sf o) 0 /\
    (forall d, In d ds -> 0 <= nth i (cr_sf o) 0 <= sf d x) /\
    (forall p, (forall d, In d ds -> hazard_defined d x /\ pdf d x = Fin (p d)) ->
       nth i (cr_hf o) NaN = Fin (rsum (map (fun d => p d / sf d x) ds)) /\
       nth i (cr_pdf o) 0 = rsum (map (fun d => p d / sf d x) ds) * nth i (cr_sf o) 0 /\
       nth i (cr_chf o) NaN = Fin (- ln (nth i (cr_sf o) 0))).
Proof.
  intros Hv Hs. apply cr_entries; [exact Hv|now apply sorted_negatives_first|]. apply Forall_forall. intros d _. now apply sorted_arg_safe.
Qed.
Theorem C53_competing_risks_partial : forall ds X o, Forall valid ds -> StronglySorted Rle X -> cr_combine ds X = Ok o ->
  length (cr_sf o) = length X /\ length (cr_hf o) = length X /\ length (cr_pdf o) = length X /\
  forall i, (i < length X)%nat -> let x := nth i X 0 in
    nth i (cr_sf o) 0 = rprod (map (fun d => sf d x) ds) /\ nth i (cr_cdf o) 0 = 1 - nth i (cr_sf o) 0 /\
    (forall d, In d ds -> 0 <= nth i (cr_sf o) 0 <= sf d x) /\
    (forall p, (forall d, In d ds -> hazard_defined d x /\ pdf d x = Fin (p d)) ->
       nth i (cr_hf o) NaN = Fin (rsum (map (fun d => p d / sf d x) ds)) /\
       nth i (cr_pdf o) 0 = rsum (map (fun d => p d / sf d x) ds) * nth i (cr_sf o) 0 /\
       nth i (cr_chf o) NaN = Fin (- ln (nth i (cr_sf o) 0))).
Proof. exact cr_entries_sorted. Qed.
Print Assumptions C53_competing_risks_partial.

(** When the call succeeds. *)
Lemma cr_succeeds ds X : Forall valid ds -> StronglySorted Rle X ->
  (exists o, cr_combine ds X = Ok o) <->
  X <> [] /\ (forall x, In x X -> x < 0 -> existsb is_signed ds = true) /\ Forall (fun d => component_accepts d X) ds.
Proof.
  intros Hv Hs. split; [intros [o H]; now apply cr_accepted with o|]. intros (A & B & C). eexists.
  apply cr_combine_ok; try assumption; [now apply sorted_negatives_first|]. apply Forall_forall. intros d _. now apply sorted_arg_safe.
Qed.
Theorem C53_succeeds : forall ds X, Forall valid ds -> StronglySorted Rle X ->
  (exists o, cr_combine ds X = Ok o) <->
  X <> [] /\ (forall x, In x X -> x < 0 -> existsb is_signed ds = true) /\ Forall (fun d => component_accepts d X) ds.
Proof. exact cr_succeeds. Qed.
Print Assumptions C53_succeeds.

(** Where x is inside the support of every component, the sum of the hazards times the
    product of the SFs is the derivative of the CDF. *)
Lemma cr_density ds x : Forall valid ds -> Forall (fun d => inside d x) ds ->
  exists p, (forall d, In d ds -> hazard_defined d x /\ pdf d x = Fin (p d)) /\
    is_derive (fun t => 1 - rprod (map (fun d => sf d t) ds)) x (rsum (map (fun d => p d / sf d x) ds) * rprod (map (fun d => sf d x) ds)).
Proof.
  intros Hv Hi. exists (fun d => pdf_real d x). split.
  - intros d Hd. rewrite Forall_forall in Hv, Hi. destruct (pdf_real_spec d (Hv d Hd) x (Hi d Hd)) as (E & _). split; [|exact E].
    split; [apply inside_sf_pos; auto|]. destruct (cut_off_family d) eqn:C; [|now left]. right. right.
    pose proof (proj1 (Hi d Hd)) as L. rewrite supp_lo_location in L by exact C. simpl in L. lra.
  - pose proof (cr_sf_derive ds x Hv Hi) as D. fold (cr_sf_at ds x).
    replace (rsum (map (fun d => pdf_real d x / sf d x) ds) * cr_sf_at ds x) with (0 - - (cr_sf_at ds x * rsum (map (fun d => pdf_real d x / sf d x) ds))) by ring.
    exact (is_derive_minus (K := R_AbsRing) (V := R_NormedModule) (fun _ => 1) (cr_sf_at ds) x 0 _ (is_derive_const (K := R_AbsRing) (V := R_NormedModule) 1 x) D).
Qed.
Theorem C53_pdf_is_derivative : forall ds x, Forall valid ds -> Forall (fun d => inside d x) ds ->
  exists p, (forall d, In d ds -> hazard_defined d x /\ pdf d x = Fin (p d)) /\
    is_derive (fun t => 1 - rprod (map (fun d => sf d t) ds)) x (rsum (map (fun d => p d / sf d x) ds) * rprod (map (fun d => sf d x) ds)).
Proof. exact cr_density. Qed.
Print Assumptions C53_pdf_is_derivative.

Example C53_case : let ds := [Normal 0 1; Exponential 1 0; Weibull 2 3 1] in let X := [-1; 0; 2] in
  Forall valid ds /\ StronglySorted Rle X /\ (exists o, cr_combine ds X = Ok o) /\ Forall (fun d => inside d 2) ds.
Proof.
  cbv zeta. assert (Forall valid [Normal 0 1; Exponential 1 0; Weibull 2 3 1]) as Hv by (repeat constructor; simpl; lra).
  assert (StronglySorted Rle [-1; 0; 2]) as Hs by (repeat constructor; lra). split; [exact Hv|]. split; [exact Hs|]. split.
  - apply C53_succeeds; [exact Hv|exact Hs|]. split; [discriminate|]. split; [reflexivity|].
    repeat constructor; exists 2; simpl; split; auto; lra.
  - repeat constructor; simpl; lra.
Qed.

(** An array that is not increasing, or has no non-negative entry, or a Beta component with a
    value above 1. *)
Lemma cr_unordered : exists ds X o i, Forall valid ds /\ cr_combine ds X = Ok o /\ (i < length X)%nat /\
  nth i (cr_sf o) 0 <> rprod (map (fun d => sf d (nth i X 0)) ds).
Proof.
  exists [Normal 0 1; Exponential 1 0], [1; -1]. eexists. exists 0%nat. split; [repeat constructor; simpl; lra|].
  assert (Rltb' 1 0 = false) as B1 by (apply Rltb'_false; lra). assert (Rltb' (-1) 0 = true) as B2 by (apply Rltb'_true; lra).
  split.
  - unfold cr_combine, comb_check. cbn [existsb is_signed]. rewrite B1, B2. cbn [orb andb negb bind]. cbn [accumulate].
    unfold component. cbn [is_signed]. unfold SF, HF, array_ok, nonneg_part, neg_part. cbn [filter forallb is_signed is_beta]. rewrite B1, B2. cbn [negb orb andb bind filter forallb length repeat app map zip].
    rewrite B1. cbn [negb orb andb bind filter forallb length repeat app map zip]. reflexivity.
  - split; [simpl; lia|]. cbn [cr_sf nth zip map rprod fold_right]. rewrite !Rmult_1_l, !Rmult_1_r.
    pose proof (inside_sf_pos (Normal 0 1) 1 ltac:(simpl; lra) ltac:(split; exact I)) as P.
    assert (sf (Exponential 1 0) 1 <> 1); [|nra].
    pose proof (F_in (Exponential 1 0) (all_facts (Exponential 1 0) ltac:(simpl; lra)) 1 ltac:(split; simpl; [lra|exact I])) as Q.
    rewrite (F_sf (Exponential 1 0) (all_facts (Exponential 1 0) ltac:(simpl; lra))). lra.
Qed.
Theorem C53_unordered_refuted : exists ds X o i, Forall valid ds /\ cr_combine ds X = Ok o /\ (i < length X)%nat /\
  nth i (cr_sf o) 0 <> rprod (map (fun d => sf d (nth i X 0)) ds).
Proof. exact cr_unordered. Qed.
Print Assumptions C53_unordered_refuted.

Lemma cr_rejects : exists ds X ds' X', Forall valid ds /\ StronglySorted Rle X /\ existsb is_signed ds = true /\ X <> [] /\ ~ (exists o, cr_combine ds X = Ok o) /\
  Forall valid ds' /\ StronglySorted Rle X' /\ Forall (fun x => 0 < x) X' /\ X' <> [] /\ ~ (exists o, cr_combine ds' X' = Ok o).
Proof.
  exists [Normal 0 1; Exponential 1 0], [-1], [DistModel.Beta 2 3; Weibull 2 3 0], [2].
  assert (Forall valid [Normal 0 1; Exponential 1 0]) as V1 by (repeat constructor; simpl; lra).
  assert (Forall valid [DistModel.Beta 2 3; Weibull 2 3 0]) as V2 by (repeat constructor; simpl; lra).
  assert (StronglySorted Rle [-1]) as S1 by (repeat constructor). assert (StronglySorted Rle [2]) as S2 by (repeat constructor).
  split; [exact V1|]. split; [exact S1|]. split; [reflexivity|]. split; [discriminate|]. split.
  - intros H. apply (C53_succeeds _ _ V1 S1) in H. destruct H as (_ & _ & H). apply Forall_inv_tail, Forall_inv in H. destruct H as (x & [<-|[]] & H). lra.
  - split; [exact V2|]. split; [exact S2|]. split; [repeat constructor; lra|]. split; [discriminate|].
    intros H. apply (C53_succeeds _ _ V2 S2) in H. destruct H as (_ & _ & H). apply Forall_inv in H. destruct H as (_ & H). specialize (H 2 (or_introl eq_refl)). lra.
Qed.
Theorem C53_rejects_valid_refuted : exists ds X ds' X', Forall valid ds /\ StronglySorted Rle X /\ existsb is_signed ds = true /\ X <> [] /\ ~ (exists o, cr_combine ds X = Ok o) /\
  Forall valid ds' /\ StronglySorted Rle X' /\ Forall (fun x => 0 < x) X' /\ X' <> [] /\ ~ (exists o, cr_combine ds' X' = Ok o).
Proof. exact cr_rejects. Qed.
Print Assumptions C53_rejects_valid_refuted.

(** ** C54 *)
Lemma mix_entries ds ps X o : Forall valid ds -> StronglySorted Rle X -> mix_proportions ds (Some ps) = Ok ps -> mix_combine ds ps X = Ok o ->
  length (mix_cdf o) = length X /\ length (mix_pdf o) = length X /\
  forall i, (i < length X)%nat -> let x := nth i X 0 in
    nth i (mix_cdf o) 0 = dot ps (map (fun d => cdf d x) ds) /\ nth i (mix_sf o) 0 = 1 - nth i (mix_cdf o) 0 /\
    (forall p, (forall d, In d ds -> pdf d x = Fin (p d)) -> nth i (mix_pdf o) NaN = Fin (dot ps (map p ds)) /\
       (0 < nth i (mix_sf o) 0 -> nth i (mix_hf o) NaN = Fin (dot ps (map p ds) / nth i (mix_sf o) 0) /\ nth i (mix_chf o) NaN = Fin (- ln (nth i (mix_sf o) 0)))) /\
    (Forall (fun p => 0 <= p) ps -> 0 <= nth i (mix_cdf o) 0 <= 1 /\
       forall lo hi, (forall d, In d ds -> lo <= cdf d x <= hi) -> lo <= nth i (mix_cdf o) 0 <= hi).
Proof.
  intros Hv Hs Hm H. destruct (mix_accepted ds ps X o H) as (A1 & A2 & A3).
  assert (rsum ps = 1 /\ length ps = length ds) as [S1 Hl].
  { unfold mix_proportions in Hm. destruct (Req_EM_T (rsum ps) 1); [|discriminate]. destruct (Nat.eqb (length ps) (length ds)) eqn:E; [|discriminate].
    apply Nat.eqb_eq in E. now split. }
  rewrite (mix_combine_ok ds ps X A1 Hl Hv (sorted_negatives_first X Hs) A3 A2) in H. apply Ok_inj in H. subst o. cbn [mix_sf mix_hf mix_pdf mix_cdf mix_chf].
  rewrite !map_length. split; [reflexivity|]. split; [reflexivity|]. intros i Hi. cbv zeta. rewrite !nth_map_r by exact Hi. set (x := nth i X 0).
  split; [reflexivity|]. split; [reflexivity|]. split.
  - intros p Hp. rewrite (mix_pdf_sum ds ps x p Hl Hp). split; [reflexivity|]. intros P. split.
    + apply ediv_fin. lra.
    + unfold neg_log. destruct (Rlt_dec 0 (1 - mix_cdf_at ds ps x)); [reflexivity|contradiction].
  - intros Hp. assert (forall lo hi, (forall d, In d ds -> lo <= cdf d x <= hi) -> lo <= mix_cdf_at ds ps x <= hi) as G.
    { intros lo hi Hb. pose proof (dot_bounds lo hi ps (map (fun d => cdf d x) ds) ltac:(now rewrite map_length) Hp) as B. rewrite S1 in B.
      unfold mix_cdf_at. rewrite !Rmult_1_r in B. apply B. apply Forall_map, Forall_forall. exact Hb. }
    split; [|exact G]. apply G. intros d Hd. apply cdf_range. rewrite Forall_forall in Hv. auto.
Qed.
Theorem C54_mixture_partial : forall ds ps X o, Forall valid ds -> StronglySorted Rle X -> mix_proportions ds (Some ps) = Ok ps -> mix_combine ds ps X = Ok o ->
  length (mix_cdf o) = length X /\ length (mix_pdf o) = length X /\
  forall i, (i < length X)%nat -> let x := nth i X 0 in
    nth i (mix_cdf o) 0 = dot ps (map (fun d => cdf d x) ds) /\ nth i (mix_sf o) 0 = 1 - nth i (mix_cdf o) 0 /\
    (forall p, (forall d, In d ds -> pdf d x = Fin (p d)) -> nth i (mix_pdf o) NaN = Fin (dot ps (map p ds)) /\
       (0 < nth i (mix_sf o) 0 -> nth i (mix_hf o) NaN = Fin (dot ps (map p ds) / nth i (mix_sf o) 0) /\ nth i (mix_chf o) NaN = Fin (- ln (nth i (mix_sf o) 0)))) /\
    (Forall (fun p => 0 <= p) ps -> 0 <= nth i (mix_cdf o) 0 <= 1 /\
       forall lo hi, (forall d, In d ds -> lo <= cdf d x <= hi) -> lo <= nth i (mix_cdf o) 0 <= hi).
Proof. exact mix_entries. Qed.
Print Assumptions C54_mixture_partial.

Lemma mix_props_checked ds ps : (rsum ps <> 1 \/ length ps <> length ds -> mix_proportions ds (Some ps) = Err ValueError) /\
  (rsum ps = 1 /\ length ps = length ds -> mix_proportions ds (Some ps) = Ok ps).
Proof.
  unfold mix_proportions. destruct (Req_EM_T (rsum ps) 1) as [E|E]; (split; [intros H|intros [H1 H2]]).
  - destruct H as [H|H]; [contradiction|]. apply Nat.eqb_neq in H. now rewrite H.
  - apply Nat.eqb_eq in H2. now rewrite H2.
  - reflexivity.
  - contradiction.
Qed.
Theorem C54_proportions_checked : forall ds ps, (rsum ps <> 1 \/ length ps <> length ds -> mix_proportions ds (Some ps) = Err ValueError) /\
  (rsum ps = 1 /\ length ps = length ds -> mix_proportions ds (Some ps) = Ok ps).
Proof. exact mix_props_checked. Qed.
Print Assumptions C54_proportions_checked.

Lemma rsum_const {A} (l : list A) c : rsum (map (fun _ => c) l) = INR (length l) * c.
Proof.
  induction l as [|x l IH]; [unfold rsum; simpl; ring|]. cbn [map length]. rewrite S_INR. unfold rsum in *. cbn [fold_right]. rewrite IH. ring.
Qed.
Lemma mix_default ds : ds <> [] -> exists ps, mix_proportions ds None = Ok ps /\ mix_proportions ds (Some ps) = Ok ps /\ Forall (fun p => 0 <= p /\ p = / INR (length ds)) ps.
Proof.
  intros H. eexists. split; [reflexivity|]. assert (0 < INR (length ds)) as P by (apply lt_0_INR; destruct ds; [contradiction|simpl; lia]). split.
  - apply mix_props_checked. rewrite rsum_const, map_length. split; [field; lra|reflexivity].
  - apply Forall_map, Forall_forall. intros. assert (0 < / INR (length ds)) by now apply Rinv_0_lt_compat. lra.
Qed.
Theorem C54_default_proportions : forall ds, ds <> [] -> exists ps, mix_proportions ds None = Ok ps /\ mix_proportions ds (Some ps) = Ok ps /\
  Forall (fun p => 0 <= p /\ p = / INR (length ds)) ps.
Proof. exact mix_default. Qed.
Print Assumptions C54_default_proportions.

Lemma mix_density ds ps x : length ps = length ds -> Forall valid ds -> Forall (fun d => inside d x) ds ->
  exists p, (forall d, In d ds -> pdf d x = Fin (p d)) /\ is_derive (fun t => dot ps (map (fun d => cdf d t) ds)) x (dot ps (map p ds)).
Proof.
  intros Hl Hv Hi. exists (fun d => pdf_real d x). split; [|now apply mix_cdf_derive].
  intros d Hd. rewrite Forall_forall in Hv, Hi. apply (pdf_real_spec d (Hv d Hd) x (Hi d Hd)).
Qed.
Theorem C54_pdf_is_derivative : forall ds ps x, length ps = length ds -> Forall valid ds -> Forall (fun d => inside d x) ds ->
  exists p, (forall d, In d ds -> pdf d x = Fin (p d)) /\ is_derive (fun t => dot ps (map (fun d => cdf d t) ds)) x (dot ps (map p ds)).
Proof. exact mix_density. Qed.
Print Assumptions C54_pdf_is_derivative.

Lemma exp_cdf_pos l x : 0 < l -> 0 < x -> cdf (Exponential l 0) x = 1 - exp (- (x * l)).
Proof.
  intros Hl Hx. cbn [cdf]. assert (0 < 1 / l) by (apply Rdiv_lt_0_compat; lra). rewrite on_pos_pos by now apply scaled_pos.
  do 3 f_equal. field. lra.
Qed.

(** The proportions are not required to be non-negative. *)
Lemma mix_negative : exists ds ps X o, Forall valid ds /\ StronglySorted Rle X /\ mix_proportions ds (Some ps) = Ok ps /\ mix_combine ds ps X = Ok o /\ 1 < nth 0 (mix_cdf o) 0.
Proof.
  exists [Exponential 1 0; Exponential 2 0], [-1; 2], [ln 4].
  assert (0 < ln 4) as P by (rewrite <- ln_1; apply ln_increasing; lra).
  assert (Forall valid [Exponential 1 0; Exponential 2 0]) as Hv by (repeat constructor; simpl; lra).
  assert (StronglySorted Rle [ln 4]) as Hs by repeat constructor.
  eexists. split; [exact Hv|]. split; [exact Hs|]. split; [apply mix_props_checked; split; [unfold rsum; simpl; lra|reflexivity]|]. split.
  - apply mix_combine_ok; try assumption; [discriminate|reflexivity|now apply sorted_negatives_first| |].
    + repeat constructor; exists (ln 4); simpl; split; auto; lra.
    + intros x [<-|[]] C. lra.
  - cbn [mix_cdf map nth]. unfold mix_cdf_at. cbn [map dot]. rewrite !exp_cdf_pos by lra.
    replace (- (ln 4 * 1)) with (- ln 4) by ring. replace (- (ln 4 * 2)) with (- ln 4 + - ln 4) by ring.
    rewrite exp_plus, exp_Ropp, exp_ln by lra. lra.
Qed.
Theorem C54_negative_proportions_refuted : exists ds ps X o, Forall valid ds /\ StronglySorted Rle X /\ mix_proportions ds (Some ps) = Ok ps /\ mix_combine ds ps X = Ok o /\ 1 < nth 0 (mix_cdf o) 0.
Proof. exact mix_negative. Qed.
Print Assumptions C54_negative_proportions_refuted.

Example C54_case : let ds := [Normal 0 1; Weibull 2 3 1] in let ps := [1 / 4; 3 / 4] in let X := [-1; 0; 2] in
  Forall valid ds /\ StronglySorted Rle X /\ mix_proportions ds (Some ps) = Ok ps /\ (exists o, mix_combine ds ps X = Ok o) /\ Forall (fun p => 0 <= p) ps.
Proof.
  cbv zeta. assert (Forall valid [Normal 0 1; Weibull 2 3 1]) as Hv by (repeat constructor; simpl; lra).
  assert (StronglySorted Rle [-1; 0; 2]) as Hs by (repeat constructor; lra). split; [exact Hv|]. split; [exact Hs|].
  split; [apply mix_props_checked; split; [unfold rsum; simpl; lra|reflexivity]|]. split; [|repeat constructor; lra].
  eexists. apply mix_combine_ok; try assumption; [discriminate|reflexivity|now apply sorted_negatives_first| |reflexivity].
  repeat constructor; exists 2; simpl; split; auto; lra.
Qed.

(** ** C55 *)
Lemma dszi_init_spec a b DS ZI : dszi_init a b = Ok (DS, ZI) -> 0 <= ZI < 1 /\ ZI <= DS <= 1 /\ 0 < DS.
Proof.
  unfold dszi_init. destruct a as [a|], b as [b|]; try discriminate;
    repeat match goal with |- context [Rlt_dec ?u ?v] => destruct (Rlt_dec u v) | |- context [Rle_dec ?u ?v] => destruct (Rle_dec u v) end; try discriminate;
    intros H; apply Ok_inj in H; injection H as <- <-; lra.
Qed.

Lemma dszi_curve a b DS ZI d : dszi_init a b = Ok (DS, ZI) -> valid d ->
  (forall x y, x <= y -> dszi_cdf DS ZI d x <= dszi_cdf DS ZI d y) /\ (forall x, ZI <= dszi_cdf DS ZI d x <= DS) /\
  is_lim (dszi_cdf DS ZI d) m_infty ZI /\ is_lim (dszi_cdf DS ZI d) p_infty DS.
Proof.
  intros H Hv. apply dszi_init_spec in H. destruct H as (H1 & H2 & _). split; [intros; apply dszi_incr; (lra || assumption)|].
  split; [intros; apply dszi_range; (lra || assumption)|]. apply dszi_lims; (lra || assumption).
Qed.
Theorem C55_cdf_rises_from_ZI_to_DS : forall a b DS ZI d, dszi_init a b = Ok (DS, ZI) -> valid d ->
  (forall x y, x <= y -> dszi_cdf DS ZI d x <= dszi_cdf DS ZI d y) /\ (forall x, ZI <= dszi_cdf DS ZI d x <= DS) /\
  is_lim (dszi_cdf DS ZI d) m_infty ZI /\ is_lim (dszi_cdf DS ZI d) p_infty DS.
Proof. exact dszi_curve. Qed.
Print Assumptions C55_cdf_rises_from_ZI_to_DS.

Lemma dszi_arrays DS ZI d X C : dszi_CDF DS ZI d X = Ok C -> C = map (dszi_cdf DS ZI d) X /\
  (exists S P, dszi_SF DS ZI d X = Ok S /\ dszi_PDF DS ZI d X = Ok P /\ S = map (fun x => 1 - dszi_cdf DS ZI d x) X /\ P = map (dszi_pdf DS ZI d) X).
Proof.
  unfold dszi_SF, dszi_PDF, dszi_CDF, CDF, PDF. destruct (array_ok d X); [|discriminate]. cbn [bind]. intros H. apply Ok_inj in H. subst C.
  rewrite !map_map. split; [reflexivity|]. eexists. eexists. split; [reflexivity|]. split; [reflexivity|]. split; reflexivity.
Qed.
Theorem C55_arrays : forall DS ZI d X C, dszi_CDF DS ZI d X = Ok C -> C = map (dszi_cdf DS ZI d) X /\
  (exists S P, dszi_SF DS ZI d X = Ok S /\ dszi_PDF DS ZI d X = Ok P /\ S = map (fun x => 1 - dszi_cdf DS ZI d x) X /\ P = map (dszi_pdf DS ZI d) X).
Proof. exact dszi_arrays. Qed.
Print Assumptions C55_arrays.

Lemma dszi_mass_props a b DS ZI d : dszi_init a b = Ok (DS, ZI) -> valid d ->
  (forall x, inside d x -> exists v, dszi_pdf DS ZI d x = Fin v /\ 0 <= v /\ is_derive (dszi_cdf DS ZI d) x v) /\
  (forall u v, inside d u -> inside d v -> u <= v ->
     exists m, is_RInt (fun x => match dszi_pdf DS ZI d x with Fin v => v | _ => 0 end) u v m /\ 0 <= m <= DS - ZI) /\
  (forall e, 0 < e -> exists u v m, inside d u /\ inside d v /\ u <= v /\
     is_RInt (fun x => match dszi_pdf DS ZI d x with Fin v => v | _ => 0 end) u v m /\ DS - ZI - e < m).
Proof.
  intros H Hv. apply dszi_init_spec in H. destruct H as (H1 & H2 & _). split; [intros; apply dszi_derive; (lra || assumption)|]. split.
  - intros u v Hu Hw L. eexists. split; [apply dszi_mass; (lra || eassumption)|].
    pose proof (dszi_range DS ZI H2 d Hv u). pose proof (dszi_range DS ZI H2 d Hv v). pose proof (dszi_incr DS ZI H2 d Hv u v L). lra.
  - intros e He. destruct (dszi_mass_total DS ZI ltac:(lra) H2 d Hv e He) as (u & v & Iu & Iv & L & M). exists u, v, (dszi_cdf DS ZI d v - dszi_cdf DS ZI d u).
    split; [exact Iu|]. split; [exact Iv|]. split; [exact L|]. split; [apply dszi_mass; (lra || assumption)|exact M].
Qed.
Theorem C55_pdf_mass : forall a b DS ZI d, dszi_init a b = Ok (DS, ZI) -> valid d ->
  (forall x, inside d x -> exists v, dszi_pdf DS ZI d x = Fin v /\ 0 <= v /\ is_derive (dszi_cdf DS ZI d) x v) /\
  (forall u v, inside d u -> inside d v -> u <= v ->
     exists m, is_RInt (fun x => match dszi_pdf DS ZI d x with Fin v => v | _ => 0 end) u v m /\ 0 <= m <= DS - ZI) /\
  (forall e, 0 < e -> exists u v m, inside d u /\ inside d v /\ u <= v /\
     is_RInt (fun x => match dszi_pdf DS ZI d x with Fin v => v | _ => 0 end) u v m /\ DS - ZI - e < m).
Proof. exact dszi_mass_props. Qed.
Print Assumptions C55_pdf_mass.
Example C55_case : dszi_init (Some (9 / 10)) (Some (1 / 10)) = Ok (9 / 10, 1 / 10) /\ valid (Weibull 50 2 0).
Proof.
  split; [|simpl; lra]. unfold dszi_init.
  repeat match goal with |- context [Rlt_dec ?u ?v] => destruct (Rlt_dec u v); [lra|] | |- context [Rle_dec ?u ?v] => destruct (Rle_dec u v); [lra|] end. reflexivity.
Qed.

(** The quantile comes from a table: it is within one step of the grid of the exact one, for q
    between the CDF at the two ends of the grid. *)
Lemma dszi_quantile_partial a b DS ZI d q x : dszi_init a b = Ok (DS, ZI) -> valid d ->
  ZI + / 10 ^ 10 * (DS - ZI) <= q < ZI + (1 - / 10 ^ 10) * (DS - ZI) -> dszi_cdf DS ZI d x = q ->
  exists v, dszi_quantile DS ZI d q = Ok v /\ Rabs (v - x) <= (ppf d (1 - / 10 ^ 10) - ppf d (/ 10 ^ 10)) / 999999.
Proof.
  intros H Hv Hq Hx. apply dszi_init_spec in H. destruct H as (H1 & H2 & _). apply dszi_quantile_close; (lra || assumption).
Qed.
Theorem C55_quantile_partial : forall a b DS ZI d q x, dszi_init a b = Ok (DS, ZI) -> valid d ->
  ZI + / 10 ^ 10 * (DS - ZI) <= q < ZI + (1 - / 10 ^ 10) * (DS - ZI) -> dszi_cdf DS ZI d x = q ->
  exists v, dszi_quantile DS ZI d q = Ok v /\ Rabs (v - x) <= (ppf d (1 - / 10 ^ 10) - ppf d (/ 10 ^ 10)) / 999999.
Proof. exact dszi_quantile_partial. Qed.
Print Assumptions C55_quantile_partial.

Lemma dszi_quantile_ends a b DS ZI d : dszi_init a b = Ok (DS, ZI) -> valid d -> ZI < DS ->
  exists v w, dszi_quantile DS ZI d ZI = Ok v /\ ZI < dszi_cdf DS ZI d v /\ dszi_quantile DS ZI d DS = Ok w /\ dszi_cdf DS ZI d w < DS.
Proof.
  intros H Hv HL. apply dszi_init_spec in H. destruct H as (H1 & H2 & _). pose proof tiny_range as T.
  pose proof (dszi_at_ppf DS ZI d Hv tiny ltac:(lra)) as E1. pose proof (dszi_at_ppf DS ZI d Hv (1 - tiny) ltac:(lra)) as E2.
  eexists. eexists. split; [apply dszi_quantile_ok; (lra || assumption)|]. rewrite and_assoc || idtac. split.
  - destruct (dszi_interp DS ZI H2 d Hv ZI) as (G & _). rewrite G; rewrite E1; nra.
  - split; [apply dszi_quantile_ok; (lra || assumption)|]. destruct (dszi_interp DS ZI H2 d Hv DS) as (_ & G & _). rewrite G; rewrite E2; nra.
Qed.
Theorem C55_quantile_at_ends_refuted : forall a b DS ZI d, dszi_init a b = Ok (DS, ZI) -> valid d -> ZI < DS ->
  exists v w, dszi_quantile DS ZI d ZI = Ok v /\ ZI < dszi_cdf DS ZI d v /\ dszi_quantile DS ZI d DS = Ok w /\ dszi_cdf DS ZI d w < DS.
Proof. exact dszi_quantile_ends. Qed.
Print Assumptions C55_quantile_at_ends_refuted.

(** A number outside [ZI, DS] is rejected; the same number in a list is not. *)
Lemma dszi_list_unchecked a b DS ZI d q : dszi_init a b = Ok (DS, ZI) -> valid d -> 0 <= q <= 1 -> q < ZI \/ DS < q ->
  dszi_quantile DS ZI d q = Err ValueError /\ exists v, dszi_quantile_list DS ZI d [q] = Ok [v].
Proof.
  intros H Hv Hq Ho. apply dszi_init_spec in H. destruct H as (H1 & H2 & _). split.
  - unfold dszi_quantile. destruct (Rlt_dec q ZI); [reflexivity|]. destruct (Rlt_dec DS q); [reflexivity|]. destruct Ho; contradiction.
  - eexists. unfold dszi_quantile_list. cbn [existsb]. assert (Rltb' q 0 = false) as -> by (apply Rltb'_false; lra). assert (Rltb' 1 q = false) as -> by (apply Rltb'_false; lra).
    cbn [orb]. rewrite dszi_CDF_grid by (assumption || lra). reflexivity.
Qed.
Theorem C55_list_range_unchecked_refuted : forall a b DS ZI d q, dszi_init a b = Ok (DS, ZI) -> valid d -> 0 <= q <= 1 -> q < ZI \/ DS < q ->
  dszi_quantile DS ZI d q = Err ValueError /\ exists v, dszi_quantile_list DS ZI d [q] = Ok [v].
Proof. exact dszi_list_unchecked. Qed.
Print Assumptions C55_list_range_unchecked_refuted.

(** ** C56 *)
Lemma dszi_median_value DS ZI d : valid d -> dszi_cdf DS ZI d (dszi_median d) = (DS + ZI) / 2.
Proof. intros Hv. unfold dszi_cdf, dszi_median. rewrite median_half by exact Hv. field. Qed.
Lemma dszi_median_iff DS ZI d : valid d -> dszi_cdf DS ZI d (dszi_median d) = 1 / 2 <-> DS + ZI = 1.
Proof. intros Hv. rewrite dszi_median_value by exact Hv. lra. Qed.
Theorem C56_median_partial : forall DS ZI d, valid d -> dszi_cdf DS ZI d (dszi_median d) = 1 / 2 <-> DS + ZI = 1.
Proof. exact dszi_median_iff. Qed.
Print Assumptions C56_median_partial.
Lemma dszi_median_wrong : exists a b DS ZI d, dszi_init a b = Ok (DS, ZI) /\ valid d /\ ZI < 1 / 2 < DS /\ dszi_cdf DS ZI d (dszi_median d) <> 1 / 2.
Proof.
  exists (Some (9 / 10)), None, (9 / 10), 0, (Weibull 50 2 0). assert (valid (Weibull 50 2 0)) as Hv by (simpl; lra). split; [|split; [exact Hv|split; [lra|]]].
  - unfold dszi_init. repeat match goal with |- context [Rlt_dec ?u ?v] => destruct (Rlt_dec u v); [lra|] | |- context [Rle_dec ?u ?v] => destruct (Rle_dec u v); [lra|] end. reflexivity.
  - rewrite dszi_median_value by exact Hv. lra.
Qed.
Theorem C56_median_refuted : exists a b DS ZI d, dszi_init a b = Ok (DS, ZI) /\ valid d /\ ZI < 1 / 2 < DS /\ dszi_cdf DS ZI d (dszi_median d) <> 1 / 2.
Proof. exact dszi_median_wrong. Qed.
Print Assumptions C56_median_refuted.

(** ** C57 *)
Theorem C57_random_samples_partial : forall DS ZI t draws oracle number, number = Z.of_nat (length draws) ->
  (count DrawFailure draws >= 1)%nat -> (forall n, length (oracle n) = n) -> Forall (possible DS ZI) draws -> DS < 1 ->
  exists f c, dszi_random_samples DS ZI number (Some t) draws oracle = Ok (f, c) /\ (length f + length c = length draws)%nat /\
    Forall (fun x => x <= t) f /\ Forall (fun x => x = t) c /\
    Permutation (f ++ c) (map (Rmin t) (repeat 0 (count DrawZero draws) ++ oracle (count DrawFailure draws)) ++ repeat t (count DrawSurvivor draws)).
Proof. exact random_samples_ok. Qed.
Print Assumptions C57_random_samples_partial.
Theorem C57_random_samples_no_survivors_partial : forall DS ZI rct draws oracle number, number = Z.of_nat (length draws) ->
  (count DrawFailure draws >= 1)%nat -> (forall n, length (oracle n) = n) -> Forall (possible DS ZI) draws -> ~ DS < 1 ->
  dszi_random_samples DS ZI number rct draws oracle = Ok (repeat 0 (count DrawZero draws) ++ oracle (count DrawFailure draws), []) /\
  length (repeat 0 (count DrawZero draws) ++ oracle (count DrawFailure draws)) = length draws.
Proof. exact random_samples_all. Qed.
Print Assumptions C57_random_samples_no_survivors_partial.
Example C57_case : Forall (possible (9 / 10) (1 / 10)) [DrawZero; DrawFailure; DrawSurvivor; DrawFailure] /\
  (count DrawFailure [DrawZero; DrawFailure; DrawSurvivor; DrawFailure] >= 1)%nat /\ (forall n, length (repeat 7 n) = n).
Proof. split; [repeat constructor; simpl; lra|]. split; [unfold count; simpl; lia|]. intros. apply repeat_length. Qed.

(** With no failure among the draws the call raises an error; for any number of samples there
    are possible draws of that kind as soon as ZI > 0 or DS < 1. *)
Lemma random_samples_can_fail DS ZI t oracle n : 0 < ZI \/ DS < 1 -> exists draws, length draws = n /\ Forall (possible DS ZI) draws /\
  dszi_random_samples DS ZI (Z.of_nat n) (Some t) draws oracle = Err ValueError.
Proof.
  intros H. set (w := if Rlt_dec 0 ZI then DrawZero else DrawSurvivor). exists (repeat w n). split; [apply repeat_length|]. split.
  - apply Forall_forall. intros y Hy. apply repeat_spec in Hy. subst y. unfold w. destruct (Rlt_dec 0 ZI); simpl; [assumption|]. destruct H; [contradiction|assumption].
  - apply random_samples_fail. unfold count, w. clear. induction n as [|n IH]; [reflexivity|]. cbn [repeat filter]. destruct (Rlt_dec 0 ZI); exact IH.
Qed.
Theorem C57_random_samples_refuted : forall DS ZI t oracle n, 0 < ZI \/ DS < 1 -> exists draws, length draws = n /\ Forall (possible DS ZI) draws /\
  dszi_random_samples DS ZI (Z.of_nat n) (Some t) draws oracle = Err ValueError.
Proof. exact random_samples_can_fail. Qed.
Print Assumptions C57_random_samples_refuted.

(** ** C93: quantiles of the competing risks, mixture and DSZI models *)
Lemma comb_grid_eq ds : comb_grid ds = table_grid (lowest ds) (highest ds).
Proof. reflexivity. Qed.

Lemma extremes_ok ds : ds <> [] -> Forall valid ds -> extremes ds (lowest ds) (highest ds).
Proof.
  intros Hne Hv. split; [|now apply lowest_highest]. intros d Hd. split; [apply fold_min_le|apply fold_max_ge]; left; apply in_map_iff; exists d; auto.
Qed.

Lemma table_quantile_spec (F : R -> R) a b q v : a <= b -> (forall x y, x <= y -> F x <= F y) -> table_quantile (table_grid a b) (map F (table_grid a b)) q = Ok v ->
  0 <= q <= 1 /\ (q < F a -> v = a) /\ (F b <= q -> v = b) /\
    (F a <= q < F b -> exists l r, a <= l <= v /\ v <= r <= b /\ r - l = (b - a) / 999999 /\ F l <= q < F r).
Proof.
  intros L HF H. unfold table_quantile in H. destruct (Rlt_dec q 0); [discriminate|]. destruct (Rlt_dec 1 q); [discriminate|].
  split; [lra|]. apply Ok_inj in H. rewrite <- H. exact (table_bracket F a b q L HF).
Qed.
Lemma cr_table ds X q v : Forall valid ds -> StronglySorted Rle X -> (let! o := cr_combine ds X in table_quantile X (cr_cdf o) q) = Ok v ->
  table_quantile X (map (fun x => 1 - rprod (map (fun d => sf d x) ds)) X) q = Ok v.
Proof.
  intros Hv S H. destruct (cr_combine ds X) as [o|] eqn:C; [|discriminate]. cbn [bind] in H.
  destruct (cr_accepted _ _ _ C) as (A1 & A2 & A3).
  rewrite cr_combine_ok in C; try assumption; [|now apply sorted_negatives_first|apply Forall_forall; intros; now apply sorted_arg_safe].
  apply Ok_inj in C. subst o. exact H.
Qed.
Lemma mix_table ds ps X q v : Forall valid ds -> length ps = length ds -> StronglySorted Rle X -> (let! o := mix_combine ds ps X in table_quantile X (mix_cdf o) q) = Ok v ->
  table_quantile X (map (fun x => dot ps (map (fun d => cdf d x) ds)) X) q = Ok v.
Proof.
  intros Hv Hl S H. destruct (mix_combine ds ps X) as [o|] eqn:C; [|discriminate]. cbn [bind] in H.
  destruct (mix_accepted _ _ _ _ C) as (A1 & A2 & A3).
  rewrite mix_combine_ok in C; try assumption; [|now apply sorted_negatives_first].
  apply Ok_inj in C. subst o. exact H.
Qed.
(** Unfold these last: the grid has a million points. *)
Local Strategy 100 [bind comb_grid table_grid cr_combine mix_combine table_quantile].

Lemma cr_quantile_spec ds q v : ds <> [] -> Forall valid ds -> cr_quantile ds q = Ok v ->
  let F := fun x => 1 - rprod (map (fun d => sf d x) ds) in
  0 <= q <= 1 /\ exists lo hi, extremes ds lo hi /\ (q < F lo -> v = lo) /\ (F hi <= q -> v = hi) /\
    (F lo <= q < F hi -> exists l r, lo <= l <= v /\ v <= r <= hi /\ r - l = (hi - lo) / 999999 /\ F l <= q < F r).
Proof.
  intros Hne Hv H F. unfold cr_quantile in H. rewrite comb_grid_eq in H. pose proof (lowest_highest ds Hne Hv) as L. pose proof (extremes_ok ds Hne Hv) as X.
  revert L X H. generalize (lowest ds) (highest ds). intros a b L X H.
  apply (cr_table ds (table_grid a b) q v Hv (grid_sorted a b L)) in H.
  apply (table_quantile_spec F a b q v L) in H.
  - split; [exact (proj1 H)|]. exists a, b. split; [exact X|]. exact (proj2 H).
  - intros x y Hxy. unfold F. pose proof (cr_sf_decr ds x y Hv Hxy) as G. unfold cr_sf_at in G. lra.
Qed.
Theorem C93_competing_risks_quantile : forall ds q v, ds <> [] -> Forall valid ds -> cr_quantile ds q = Ok v ->
  let F := fun x => 1 - rprod (map (fun d => sf d x) ds) in
  0 <= q <= 1 /\ exists lo hi, extremes ds lo hi /\ (q < F lo -> v = lo) /\ (F hi <= q -> v = hi) /\
    (F lo <= q < F hi -> exists l r, lo <= l <= v /\ v <= r <= hi /\ r - l = (hi - lo) / 999999 /\ F l <= q < F r).
Proof. exact cr_quantile_spec. Qed.
Print Assumptions C93_competing_risks_quantile.

Lemma mix_quantile_spec ds ps q v : ds <> [] -> Forall valid ds -> mix_proportions ds (Some ps) = Ok ps -> Forall (fun p => 0 <= p) ps -> mix_quantile ds ps q = Ok v ->
  let F := fun x => dot ps (map (fun d => cdf d x) ds) in
  0 <= q <= 1 /\ exists lo hi, extremes ds lo hi /\ (q < F lo -> v = lo) /\ (F hi <= q -> v = hi) /\
    (F lo <= q < F hi -> exists l r, lo <= l <= v /\ v <= r <= hi /\ r - l = (hi - lo) / 999999 /\ F l <= q < F r).
Proof.
  intros Hne Hv Hm Hp H F.
  assert (length ps = length ds) as Hl.
  { unfold mix_proportions in Hm. destruct (Req_EM_T (rsum ps) 1); [|discriminate]. destruct (Nat.eqb (length ps) (length ds)) eqn:E; [|discriminate]. now apply Nat.eqb_eq. }
  unfold mix_quantile in H. rewrite comb_grid_eq in H. pose proof (lowest_highest ds Hne Hv) as L. pose proof (extremes_ok ds Hne Hv) as X.
  revert L X H. generalize (lowest ds) (highest ds). intros a b L X H.
  apply (mix_table ds ps (table_grid a b) q v Hv Hl (grid_sorted a b L)) in H.
  apply (table_quantile_spec F a b q v L) in H.
  - split; [exact (proj1 H)|]. exists a, b. split; [exact X|]. exact (proj2 H).
  - intros x y Hxy. now apply (mix_cdf_incr x y Hxy ds ps).
Qed.
Theorem C93_mixture_quantile : forall ds ps q v, ds <> [] -> Forall valid ds -> mix_proportions ds (Some ps) = Ok ps -> Forall (fun p => 0 <= p) ps -> mix_quantile ds ps q = Ok v ->
  let F := fun x => dot ps (map (fun d => cdf d x) ds) in
  0 <= q <= 1 /\ exists lo hi, extremes ds lo hi /\ (q < F lo -> v = lo) /\ (F hi <= q -> v = hi) /\
    (F lo <= q < F hi -> exists l r, lo <= l <= v /\ v <= r <= hi /\ r - l = (hi - lo) / 999999 /\ F l <= q < F r).
Proof. exact mix_quantile_spec. Qed.
Print Assumptions C93_mixture_quantile.

(** inverse_SF of q is the quantile of 1 - q. *)
Theorem C93_inverse_SF : forall ds ps q,
  cr_inverse_SF ds q = cr_quantile ds (1 - q) /\ mix_inverse_SF ds ps q = mix_quantile ds ps (1 - q) /\
  forall DS ZI d, 0 <= ZI -> ZI <= DS <= 1 -> ZI <= 1 - q <= DS -> dszi_inverse_SF DS ZI d q = dszi_quantile DS ZI d (1 - q).
Proof.
  assert (forall X C q, table_inverse_SF X C q = table_quantile X C (1 - q)) as T.
  { intros X C q. unfold table_inverse_SF, table_quantile.
    destruct (Rlt_dec q 0), (Rlt_dec 1 (1 - q)); try lra; destruct (Rlt_dec 1 q), (Rlt_dec (1 - q) 0); try lra; reflexivity. }
  intros ds ps q. split; [|split].
  - unfold cr_inverse_SF, cr_quantile. destruct (cr_combine ds (comb_grid ds)); [apply T|reflexivity].
  - unfold mix_inverse_SF, mix_quantile. destruct (mix_combine ds ps (comb_grid ds)); [apply T|reflexivity].
  - intros DS ZI d H0 H1 H2. unfold dszi_inverse_SF, dszi_quantile. destruct (Rlt_dec q 0); [lra|]. destruct (Rlt_dec 1 q); [lra|].
    destruct (Rlt_dec (1 - q) ZI); [lra|]. destruct (Rlt_dec DS (1 - q)); [lra|]. reflexivity.
Qed.
Print Assumptions C93_inverse_SF.

(** The median, b5 and b95 of the models. *)
Lemma table_stat_spec (F : R -> R) X p x : table_stat X (map F X) p = Ok x -> In x X /\ forall y, In y X -> Rabs (F x - p) <= Rabs (F y - p).
Proof.
  unfold table_stat. rewrite map_map. destruct (argmin (map (fun x => Rabs (F x - p)) X)) as [i|] eqn:A; [|discriminate]. cbn [bind].
  apply argmin_spec in A. destruct A as [Li Hm]. rewrite map_length in Li. destruct (nth_error X i) as [u|] eqn:E; [|discriminate]. intros H. apply Ok_inj in H. subst u.
  apply (nth_error_nth X i 0) in E. split; [rewrite <- E; now apply nth_In|]. intros y Hy.
  specialize (Hm (Rabs (F y - p)) ltac:(apply in_map_iff; exists y; auto)). rewrite nth_map_r in Hm by exact Li. now rewrite E in Hm.
Qed.
Theorem C93_reported_percentiles : forall (F : R -> R) X p x, table_stat X (map F X) p = Ok x -> In x X /\ forall y, In y X -> Rabs (F x - p) <= Rabs (F y - p).
Proof. exact table_stat_spec. Qed.
Print Assumptions C93_reported_percentiles.

Lemma signed_accepts ds X : Forall (fun d => is_signed d = true) ds -> Forall (fun d => component_accepts d X) ds.
Proof. apply Forall_impl. intros d Hd. destruct d; try discriminate; exact I. Qed.
Example C93_case : exists v w, cr_quantile [Normal 10 1; Gumbel 12 2] (1 / 2) = Ok v /\ mix_quantile [Normal 10 1; Gumbel 12 2] [1 / 4; 3 / 4] (1 / 2) = Ok w.
Proof.
  assert (Forall valid [Normal 10 1; Gumbel 12 2]) as Hv by (repeat constructor; simpl; lra).
  pose proof (lowest_highest [Normal 10 1; Gumbel 12 2] ltac:(discriminate) Hv) as L.
  assert (Forall (fun d => component_accepts d (comb_grid [Normal 10 1; Gumbel 12 2])) [Normal 10 1; Gumbel 12 2]) as HA by (apply signed_accepts; repeat constructor).
  eexists. eexists. split.
  - unfold cr_quantile. rewrite cr_combine_ok; [|rewrite comb_grid_eq; apply grid_ne|exact Hv|rewrite comb_grid_eq; apply sorted_negatives_first, grid_sorted, L|exact HA| |reflexivity].
    + cbn [bind]. unfold table_quantile. destruct (Rlt_dec (1 / 2) 0); [lra|]. destruct (Rlt_dec 1 (1 / 2)); [lra|reflexivity].
    + apply Forall_forall. intros. rewrite comb_grid_eq. apply sorted_arg_safe, grid_sorted, L.
  - unfold mix_quantile. rewrite mix_combine_ok; [|rewrite comb_grid_eq; apply grid_ne|reflexivity|exact Hv|rewrite comb_grid_eq; apply sorted_negatives_first, grid_sorted, L|exact HA|reflexivity].
    cbn [bind]. unfold table_quantile. destruct (Rlt_dec (1 / 2) 0); [lra|]. destruct (Rlt_dec 1 (1 / 2)); [lra|reflexivity].
Qed.

(** ** C94: mean residual life of the DSZI model *)

Lemma mrl_same a b DS ZI d base t : dszi_init a b = Ok (DS, ZI) -> DS = 1 -> valid d -> mean_residual (sf d) t (base t) ->
  exists m, dszi_mrl DS base t = Fin m /\ mean_residual (fun x => 1 - dszi_cdf DS ZI d x) t m.
Proof.
  intros H -> Hv [P (I & HI & HL)]. apply dszi_init_spec in H. destruct H as (H1 & H2 & _).
  exists (base t). split; [unfold dszi_mrl; destruct (Rlt_dec 1 1); [lra|reflexivity]|].
  assert (forall x, 1 - dszi_cdf 1 ZI d x = (1 - ZI) * sf d x) as E by (intros x; unfold dszi_cdf; rewrite (F_sf d (all_facts d Hv)); ring).
  split; [rewrite E; nra|]. exists (fun T => (1 - ZI) * I T). split.
  - intros T HT. apply (is_RInt_ext (fun x => (1 - ZI) * sf d x)); [intros; symmetry; apply E|].
    apply (is_RInt_scal (V := R_NormedModule) (sf d) t T (1 - ZI)). now apply HI.
  - apply (is_lim_ext (fun T => I T / sf d t)); [|exact HL]. intros T. rewrite E. field. split; lra.
Qed.
Theorem C94_mean_residual_life : forall a b DS ZI d base t, dszi_init a b = Ok (DS, ZI) -> DS = 1 -> valid d -> mean_residual (sf d) t (base t) ->
  exists m, dszi_mrl DS base t = Fin m /\ mean_residual (fun x => 1 - dszi_cdf DS ZI d x) t m.
Proof. exact mrl_same. Qed.
Print Assumptions C94_mean_residual_life.

(** With DS < 1 the integral has no finite bound and the model returns inf. *)
Lemma mrl_infinite a b DS ZI d base t : dszi_init a b = Ok (DS, ZI) -> DS < 1 -> valid d ->
  dszi_mrl DS base t = PInf /\ forall M, exists T, t <= T /\ forall T' I, T <= T' -> is_RInt (fun x => 1 - dszi_cdf DS ZI d x) t T' I -> M <= I.
Proof.
  intros H HD Hv. apply dszi_init_spec in H. destruct H as (H1 & H2 & _). split; [unfold dszi_mrl; destruct (Rlt_dec DS 1); [reflexivity|contradiction]|].
  intros M. exists (t + Rmax 0 (M / (1 - DS))). pose proof (Rmax_l 0 (M / (1 - DS))). pose proof (Rmax_r 0 (M / (1 - DS))). split; [lra|].
  intros T' I HT HI. assert (t <= T') as L by lra.
  pose proof (is_RInt_const (V := R_NormedModule) t T' (1 - DS)) as HC.
  assert (scal (T' - t) (1 - DS) <= I) as G.
  { apply (is_RInt_le (fun _ => 1 - DS) (fun x => 1 - dszi_cdf DS ZI d x) t T' _ _ L HC HI). intros x _. pose proof (dszi_range DS ZI H2 d Hv x). lra. }
  apply Rle_trans with (2 := G). change (scal (T' - t) (1 - DS)) with ((T' - t) * (1 - DS)).
  replace M with (M / (1 - DS) * (1 - DS)) by (field; lra). apply Rmult_le_compat_r; lra.
Qed.
Theorem C94_infinite_mean_residual_life : forall a b DS ZI d base t, dszi_init a b = Ok (DS, ZI) -> DS < 1 -> valid d ->
  dszi_mrl DS base t = PInf /\ forall M, exists T, t <= T /\ forall T' I, T <= T' -> is_RInt (fun x => 1 - dszi_cdf DS ZI d x) t T' I -> M <= I.
Proof. exact mrl_infinite. Qed.
Print Assumptions C94_infinite_mean_residual_life.
