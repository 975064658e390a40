(** C134, C135, C136: random samples. *)
From Coquelicot Require Import Coquelicot.
From Coq Require Import List Arith Reals Lra Lia Bool ZArith Sorting.Sorted.
From Verif Require Import Base RealFacts Ext RList DistModel DistSpec DistProofs DistProofs2 DistProps DistProofs4 QQProofs PlotProofs2 RepairModel CombModel CombSpec CombProofs CombProofs2 CombProps
  MomentSpec MRLProofs CStatModel CStatSpec CStatProofs CStatProofs2 CStatProofs3 CStatProps RandModel RandSpec RandProofs.
Import ListNotations.
Open Scope R_scope.
#[local] Opaque table_grid points.

(** ** C134 *)
(** The arguments that are refused, for all eight distributions. *)
Theorem C134_arguments : forall G (seeded : Z -> G) std_draw fuel d c seed g e,
  random_samples G seeded std_draw fuel d c seed g = Some (Err e) <->
  e = ValueError /\ ((forall n, (1 <= n)%nat -> c <> IsInt (Z.of_nat n)) \/ ~ good_seed seed).
Proof. intros. apply samples_err. Qed.
Print Assumptions C134_arguments.

(** The samples are the requested number of draws from the standard member of the family,
    moved and scaled so that their probabilities are those of the distribution. *)
Theorem C134_samples : forall G (seeded : Z -> G) std_draw fuel d n seed g,
  valid d -> ~ is_beta d -> (1 <= n)%nat -> good_seed seed ->
  let source := std_draw (standard d) in let g0 := start seeded seed g in
  exists l, random_samples G seeded std_draw fuel d (IsInt (Z.of_nat n)) seed g = Some (Ok (l, after source n g0)) /\ length l = n /\
    forall i, (i < n)%nat -> let x := nth i l 0 in let y := number source g0 i in
      cdf d x = cdf (standard d) y /\ (inside (standard d) y -> inside d x /\ forall t, inside d t -> (x <= t <-> cdf (standard d) y <= cdf d t)) /\
      (forall u, 0 < u < 1 -> y = ppf (standard d) u -> x = ppf d u).
Proof.
  intros G seeded std_draw fuel d n seed g V NB Hn Hs source g0. eexists. split; [apply samples_plain; assumption|]. split; [now rewrite map_length, first_length|].
  intros i Hi x y. assert (x = y * cscale d + cloc d) as Ex.
  { unfold x. rewrite (nth_indep _ 0 (0 * cscale d + cloc d)) by (now rewrite map_length, first_length). rewrite (map_nth (fun v => v * cscale d + cloc d)), first_nth by assumption. reflexivity. }
  rewrite Ex. split; [now apply cdf_standard|]. split.
  - intros Iy. pose proof (proj2 (inside_standard d y V) Iy) as Ix. split; [assumption|]. intros t It. rewrite <- (cdf_standard d y V). split.
    + intros L. now apply cdf_incr.
    + intros L. destruct (Rle_dec (y * cscale d + cloc d) t) as [K|K]; [assumption|]. exfalso. assert (cdf d t < cdf d (y * cscale d + cloc d)); [|lra]. apply cdf_strict; try assumption. lra.
  - intros u U ->. symmetry. now apply ppf_standard.
Qed.
Print Assumptions C134_samples.

(** With a seed the samples do not depend on what was drawn before, and fewer samples are the
    beginning of more; without a seed, one call continues where the last stopped. *)
Theorem C134_reproducible : forall G (seeded : Z -> G) std_draw fuel d n m s g1 g2, ~ is_beta d -> (1 <= n)%nat -> good_seed (Some s) ->
  exists l l' g1' g2', random_samples G seeded std_draw fuel d (IsInt (Z.of_nat n)) (Some s) g1 = Some (Ok (l, g1')) /\
    random_samples G seeded std_draw fuel d (IsInt (Z.of_nat (n + m))) (Some s) g2 = Some (Ok (l ++ l', g2')) /\ length l' = m.
Proof.
  intros G seeded std_draw fuel d n m s g1 g2 NB Hn Hs. do 4 eexists. split; [now apply samples_plain|]. split; [rewrite samples_plain by (assumption || lia); rewrite first_app, map_app; reflexivity|].
  now rewrite map_length, first_length.
Qed.
Print Assumptions C134_reproducible.

Theorem C134_consecutive : forall G (seeded : Z -> G) std_draw fuel d n m g, ~ is_beta d -> (1 <= n)%nat -> (1 <= m)%nat ->
  exists l1 l2 g1 g2, random_samples G seeded std_draw fuel d (IsInt (Z.of_nat n)) None g = Some (Ok (l1, g1)) /\
    random_samples G seeded std_draw fuel d (IsInt (Z.of_nat m)) None g1 = Some (Ok (l2, g2)) /\
    random_samples G seeded std_draw fuel d (IsInt (Z.of_nat (n + m))) None g = Some (Ok (l1 ++ l2, g2)).
Proof.
  intros G seeded std_draw fuel d n m g NB Hn Hm. do 4 eexists. split; [now apply samples_plain|]. cbn [start]. split; [now apply samples_plain|]. cbn [start].
  rewrite samples_plain by (exact I || assumption || lia). cbn [start]. rewrite first_app, map_app, after_add. reflexivity.
Qed.
Print Assumptions C134_consecutive.

(** The Beta distribution returns the first draws that are below 1; it returns as soon as
    enough of them have come, and never if they do not. *)
Theorem C134_beta : forall G (seeded : Z -> G) std_draw a b n seed g, (1 <= n)%nat -> good_seed seed ->
  let source := std_draw (DistModel.Beta a b) in let g0 := start seeded seed g in
  let kept k := filter (fun x => if Rlt_dec x 1 then true else false) (first_numbers source g0 k) in
  (forall fuel l g', random_samples G seeded std_draw fuel (DistModel.Beta a b) (IsInt (Z.of_nat n)) seed g = Some (Ok (l, g')) ->
     length l = n /\ exists k, l = kept k /\ g' = after source k g0) /\
  ((exists fuel r, random_samples G seeded std_draw fuel (DistModel.Beta a b) (IsInt (Z.of_nat n)) seed g = Some r) <-> exists k, (n <= length (kept k))%nat).
Proof.
  intros G seeded std_draw a b n seed g Hn Hs source g0 kept. split.
  - intros fuel l g' H. rewrite samples_beta in H by assumption. destruct (beta_loop _ _ _ _ _ _ _) as [[l1 g1]|] eqn:E; [|discriminate]. injection H as -> ->.
    destruct (beta_sound std_draw a b n g0 fuel n _ l g' (seen_first std_draw a b n g0) E) as (k & A & B & C). split; [assumption|]. exists k. now split.
  - split.
    + intros (fuel & r & H). rewrite samples_beta in H by assumption. destruct (beta_loop _ _ _ _ _ _ _) as [[l1 g1]|] eqn:E; [|discriminate].
      destruct (beta_sound std_draw a b n g0 fuel n _ l1 g1 (seen_first std_draw a b n g0) E) as (k & A & B & C). exists k. unfold kept. change (n <= length (filter (fun x => belowb x 1) (first_numbers source g0 k)))%nat. rewrite <- B, A. reflexivity.
    + intros (k & Hk). destruct (beta_ends std_draw a b n g0 k Hk k n _ (seen_first std_draw a b n g0) ltac:(lia)) as [r E]. exists (S k), (Ok r). rewrite samples_beta by assumption. change (start seeded seed g) with g0. change (standard (DistModel.Beta a b)) with (DistModel.Beta a b) in E. now rewrite E.
Qed.
Print Assumptions C134_beta.

(** A generator: the states are sequences of numbers and every seed s starts at the sequence
    1 / (s + 3), 1 / (s + 4), ... *)
Definition sequences := nat -> R.
Definition seq_seed (s : Z) : sequences := fun i => / (IZR s + 3 + INR i).
Definition seq_next (g : sequences) : R * sequences := (g O, fun i => g (S i)).
Definition seq_draw (d : dist) (g : sequences) : R * sequences := (ppf d (g O), fun i => g (S i)).

Example C134_case : exists l g', valid (Weibull 50 2 10) /\ random_samples sequences seq_seed seq_draw 0 (Weibull 50 2 10) (IsInt 3) (Some 7%Z) (fun _ => 1 / 2) = Some (Ok (l, g')) /\
  nth 0 l 0 = ppf (Weibull 50 2 10) (/ 10).
Proof.
  assert (valid (Weibull 50 2 10)) as V by (simpl; lra).
  destruct (C134_samples sequences seq_seed seq_draw 0 (Weibull 50 2 10) 3 (Some 7%Z) (fun _ => 1 / 2) V (fun K => K) ltac:(lia) ltac:(simpl; lia)) as (l & E & L & H).
  exists l. eexists. split; [exact V|]. split; [exact E|]. apply (H 0%nat ltac:(lia)); [lra|]. unfold number, after, seq_draw, start. cbn [fst]. unfold seq_seed. cbn [INR]. f_equal. f_equal. lra.
Qed.

(** ** C135 *)
Lemma points_table lo hi : points lo hi = table_grid lo hi.
Proof.
  Transparent table_grid points. unfold points, table_grid, linspace. destruct M_facts as [_ ->]. reflexivity.
Qed.
#[local] Opaque table_grid points.
Lemma nodes_sorted h m : 0 < h -> forall a, StronglySorted Rlt (nodes a h m).
Proof.
  intros P. assert (forall m a x, In x (nodes a h m) -> a <= x) as K.
  { clear m. induction m as [|m IH]; intros a x; cbn [nodes]; [intros []|]. intros [<-|Hx]; [lra|]. apply IH in Hx. lra. }
  induction m as [|m IH]; intros a; cbn [nodes]; [constructor|]. constructor; [apply IH|]. apply Forall_forall. intros x Hx. apply K in Hx. lra.
Qed.
Lemma table_sorted lo hi : lo < hi -> StronglySorted Rlt (table_grid lo hi).
Proof. intros L. rewrite grid_nodes. apply nodes_sorted. apply Rdiv_lt_0_compat; lra. Qed.
Lemma rsum_pos f (l : list R) x : (forall y, In y l -> 0 <= f y) -> In x l -> 0 < f x -> 0 < rsum (map f l).
Proof.
  intros H Hx P. induction l as [|y l IH]; [destruct Hx|]. unfold rsum. cbn [map fold_right]. fold (rsum (map f l)). pose proof (H y (or_introl eq_refl)).
  assert (0 <= rsum (map f l)) by (apply rsum_nonneg; intros; apply H; now right). destruct Hx as [->|Hx]; [lra|]. specialize (IH (fun z Hz => H z (or_intror Hz)) Hx). lra.
Qed.
Lemma follows_of f lo hi us xs : Forall2 (fun u x => In x (table_grid lo hi) /\ forall t, x <= t <-> u < rsum (map f (filter (fun y => if Rle_dec y t then true else false) (table_grid lo hi))) / rsum (map f (table_grid lo hi))) us xs ->
  follows_table f lo hi us xs.
Proof.
  intros F. split; [clear -F; induction F; cbn [length]; congruence|]. intros i Hi. unfold share. rewrite points_table.
  assert (forall P us xs, Forall2 P us xs -> forall i, (i < length us)%nat -> P (nth i us 0) (nth i xs 0)) as K.
  { clear. intros P us xs F. induction F as [|u x us xs A F IH]; intros i Hi; [simpl in Hi; lia|]. destruct i as [|i]; [exact A|]. cbn [nth]. apply IH. simpl in Hi. lia. }
  exact (K _ _ _ F i Hi).
Qed.
Lemma mix_density_nonneg ds ps x : Forall valid ds -> Forall (fun p => 0 <= p) ps -> 0 <= mix_density_at ds ps x.
Proof. intros V P. apply dot_nonneg; [assumption|]. apply Forall_map, Forall_forall. intros d Hd. apply density_nonneg. rewrite Forall_forall in V. auto. Qed.
Lemma lo_point lo hi : grid_point lo hi lo.
Proof. exists O. cbn [INR]. split; lra. Qed.
Lemma cr_positive ds lo hi : Forall valid ds -> range_of ds lo hi -> 0 < cr_density_at ds lo.
Proof.
  intros V (H & (d1 & I1 & E1) & _). rewrite Forall_forall in V. pose proof tiny_range as T. unfold tiny in T.
  assert (forall d, In d ds -> 0 < sf d lo) as SP.
  { intros d Hd. rewrite (F_sf d (all_facts d (V d Hd))). pose proof (cdf_incr d (V d Hd) lo (ppf d (/ 10 ^ 10)) (proj1 (H d Hd))) as K.
    rewrite (proj2 (F_ppf d (all_facts d (V d Hd)) (/ 10 ^ 10) ltac:(lra))) in K. lra. }
  unfold cr_density_at. apply Rmult_lt_0_compat.
  - unfold cr_survival. clear -SP. induction ds as [|d ds IH]; cbn [map]; [unfold rprod; simpl; lra|]. unfold rprod in *. cbn [fold_right]. apply Rmult_lt_0_compat; [apply SP; now left|apply IH; intros; apply SP; now right].
  - assert (0 < density d1 lo) as P1.
    { destruct (F_der d1 (all_facts d1 (V d1 I1)) lo) as (v & Ev & Pv & _); [rewrite E1; apply (F_ppf d1 (all_facts d1 (V d1 I1)) (/ 10 ^ 10)); lra|]. unfold density. now rewrite Ev. }
    assert (forall d, In d ds -> 0 <= density d lo / sf d lo) as NN by (intros d Hd; apply Rdiv_le_0_compat; [apply density_nonneg; now apply V|now apply SP]).
    pose proof (SP d1 I1) as S1. clear -I1 P1 NN S1. induction ds as [|d ds IH]; [destruct I1|]. unfold rsum in *. cbn [map fold_right].
    assert (0 <= fold_right Rplus 0 (map (fun d0 => density d0 lo / sf d0 lo) ds)) as K.
    { clear -NN. assert (forall d0, In d0 ds -> 0 <= density d0 lo / sf d0 lo) as N2 by (intros; apply NN; now right). clear NN. induction ds as [|e ds IH]; cbn [map fold_right]; [lra|]. pose proof (N2 e (or_introl eq_refl)). specialize (IH (fun z Hz => N2 z (or_intror Hz))). lra. }
    destruct I1 as [->|I1]; [assert (0 < density d1 lo / sf d1 lo) by (apply Rdiv_lt_0_compat; assumption); lra|].
    specialize (IH I1 (fun z Hz => NN z (or_intror Hz))). pose proof (NN d (or_introl eq_refl)). lra.
Qed.

(** Samples of the combined models are points of the table, chosen by inverting the share of
    the sum of the densities. *)
Theorem C135_competing_risks : forall G (seeded : Z -> G) uniform ds lo hi n seed g,
  Forall valid ds -> range_of ds lo hi -> below_one ds hi -> finite_density ds lo hi -> hazards_defined ds lo hi ->
  (forall g, 0 <= fst (uniform g) < 1) -> (1 <= n)%nat -> good_seed seed ->
  let g0 := start seeded seed g in
  exists xs, cr_random_samples G seeded uniform ds (IsInt (Z.of_nat n)) seed g = Ok (xs, after uniform n g0) /\
    follows_table (cr_density_at ds) lo hi (first_numbers uniform g0 n) xs.
Proof.
  intros G seeded uniform ds lo hi n seed g V Rg B F Hz HU Hn Hs g0. pose proof (range_lt ds lo hi V Rg) as L.
  unfold cr_random_samples. rewrite (range_grid ds lo hi Rg). cbv zeta. rewrite (cr_tables ds lo hi V Rg B). cbn [bind cr_pdf].
  rewrite (map_ext_in (fun x => nan_to_num (emul (Fin (cr_sf_at ds x)) (cr_hf_at ds x))) (cr_density_at ds) (table_grid lo hi)).
  2:{ intros x Hx. apply grid_points in Hx. apply cr_pdf_at; [assumption|]. intros d Hd. split; [now apply Hz|now apply F]. }
  destruct (table_choice seeded uniform (cr_density_at ds) (table_grid lo hi) n seed g (table_sorted lo hi L) (grid_ne lo hi)) as (xs & E & P); try assumption.
  - intros x _. now apply cr_density_nonneg.
  - apply rsum_pos with lo; [intros; now apply cr_density_nonneg| |now apply (cr_positive ds lo hi)]. exact (proj2 (grid_points lo hi lo) (lo_point lo hi)).
  - exists xs. split; [exact E|]. now apply follows_of.
Qed.
Print Assumptions C135_competing_risks.

Theorem C135_mixture : forall G (seeded : Z -> G) uniform ds ps lo hi n seed g,
  Forall valid ds -> length ps = length ds -> Forall (fun p => 0 <= p) ps -> range_of ds lo hi -> below_one ds hi -> finite_density ds lo hi ->
  (forall g, 0 <= fst (uniform g) < 1) -> (1 <= n)%nat -> good_seed seed ->
  let g0 := start seeded seed g in
  ((exists x, grid_point lo hi x /\ 0 < mix_density_at ds ps x) ->
    exists xs, mix_random_samples G seeded uniform ds ps (IsInt (Z.of_nat n)) seed g = Ok (xs, after uniform n g0) /\
      follows_table (mix_density_at ds ps) lo hi (first_numbers uniform g0 n) xs) /\
  ((forall x, grid_point lo hi x -> mix_density_at ds ps x = 0) -> mix_random_samples G seeded uniform ds ps (IsInt (Z.of_nat n)) seed g = Err ValueError).
Proof.
  intros G seeded uniform ds ps lo hi n seed g V Lp Pp Rg B F HU Hn Hs g0. pose proof (range_lt ds lo hi V Rg) as L.
  unfold mix_random_samples. rewrite (range_grid ds lo hi Rg). cbv zeta. rewrite (mix_tables ds ps lo hi V Lp Rg B). cbn [bind mix_pdf].
  rewrite (map_ext_in (mix_pdf_at ds ps) (fun x => Fin (mix_density_at ds ps x)) (table_grid lo hi)).
  2:{ intros x Hx. apply mix_pdf_sum; [assumption|]. intros d Hd. apply grid_points in Hx. destruct (F d x Hd Hx) as [p E]. unfold density. now rewrite E. }
  rewrite <- (map_map (mix_density_at ds ps) Fin). split.
  - intros (x & Hx & Px). destruct (table_choice seeded uniform (mix_density_at ds ps) (table_grid lo hi) n seed g (table_sorted lo hi L) (grid_ne lo hi)) as (xs & E & P); try assumption.
    + intros y _. now apply mix_density_nonneg.
    + apply rsum_pos with x; [intros; now apply mix_density_nonneg| |assumption]. exact (proj2 (grid_points lo hi x) Hx).
    + exists xs. split; [exact E|]. now apply follows_of.
  - intros Z0. apply table_empty; [assumption|assumption|]. right. eexists. split; [apply all_finite_fin|].
    assert (forall x, In x (table_grid lo hi) -> mix_density_at ds ps x = 0) as K by (intros x Hx; apply Z0; exact (proj1 (grid_points lo hi x) Hx)). revert K.
    generalize (table_grid lo hi). intros X K. induction X as [|x X IH]; [reflexivity|]. unfold rsum in *. cbn [map fold_right]. rewrite K by now left. rewrite IH; [ring|]. intros; apply K; now right.
Qed.
Print Assumptions C135_mixture.

(** That share is the distribution function of the model between its extreme quantiles, up to
    the width of the table. *)
Theorem C135_close : forall f lo hi L x (I J : R), lo < hi -> rate_at_most L f lo hi -> (forall y, lo <= y <= hi -> 0 <= f y) -> grid_point lo hi x ->
  is_RInt f lo hi I -> is_RInt f lo x J -> 0 < I ->
  Rabs (share f lo hi x - J / I) <= 2 * ((f lo + L * (hi - lo)) * ((hi - lo) / 999999)) / I.
Proof.
  intros f lo hi L x I J H HL HF (k & Hk & ->) HI HJ PI0. set (h := (hi - lo) / 999999) in *. assert (0 < h) as Ph by (apply Rdiv_lt_0_compat; lra).
  destruct million as (K & EK & NK). assert (lo + INR (S K) * h = hi) as Eh by (rewrite NK; unfold h; field).
  assert (k < S (S K))%nat as Lk by (apply Nat.lt_succ_r, INR_le; rewrite NK; exact Hk).
  assert (0 <= L) as L0. { pose proof (HL lo hi ltac:(lra) ltac:(lra)) as Q. pose proof (Rabs_pos (f lo - f hi)). rewrite (Rabs_left (lo - hi)) in Q by lra. nra. }
  unfold share. Transparent points. unfold points. Opaque points. rewrite EK. fold h. rewrite (filter_points lo h (S (S K)) k Ph Lk), !map_map.
  assert (forall j, (j <= S K)%nat -> lo + INR j * h <= hi) as Lj by (intros j Hj; rewrite <- Eh; apply le_INR in Hj; nra).
  pose proof (right_sum f lo h L Ph k J) as Q1. pose proof (right_sum f lo h L Ph (S K) I) as Q2. rewrite Eh in Q2.
  specialize (Q2 HL HI). specialize (Q1 ltac:(intros u v Hu Hv; pose proof (Lj k ltac:(lia)); apply HL; lra) HJ).
  set (sk := rsum (map (fun i => f (lo + INR i * h)) (seq 0 (S k)))) in *. set (sn := rsum (map (fun i => f (lo + INR i * h)) (seq 0 (S (S K))))) in *.
  assert (0 <= f lo) as F0 by (apply HF; lra).
  assert (forall j, (j <= S K)%nat -> 0 <= f (lo + INR j * h)) as FN by (intros j Hj; apply HF; pose proof (Lj j Hj); pose proof (pos_INR j); nra).
  assert (forall l, (forall j, In j l -> (j <= S K)%nat) -> 0 <= rsum (map (fun i => f (lo + INR i * h)) l)) as SN.
  { induction l as [|j l IH]; intros Hl; unfold rsum in *; cbn [map fold_right]; [lra|]. pose proof (FN j (Hl j (or_introl eq_refl))). specialize (IH (fun z Hz => Hl z (or_intror Hz))). lra. }
  assert (0 <= sk) as S0 by (apply SN; intros j Hj; apply in_seq in Hj; lia).
  assert (sk <= sn) as S1.
  { unfold sk, sn. replace (S (S K)) with (S k + (S (S K) - S k))%nat by lia. rewrite seq_app, map_app, rsum_app. assert (0 <= rsum (map (fun i => f (lo + INR i * h)) (seq (0 + S k) (S (S K) - S k)))); [|lra]. apply SN. intros j Hj. apply in_seq in Hj. lia. }
  set (E := (f lo + L * (hi - lo)) * h). assert (forall j, (j <= S K)%nat -> INR j * (L * h * h) + h * f lo <= E) as BE.
  { intros j Hj. pose proof (Lj j Hj). assert (INR j * h <= hi - lo) by lra. assert (L * h * (INR j * h) <= L * h * (hi - lo)) by (apply Rmult_le_compat_l; [apply Rmult_le_pos; lra|assumption]). unfold E. replace (INR j * (L * h * h)) with (L * h * (INR j * h)) by ring. lra. }
  pose proof (BE k ltac:(lia)) as B1. pose proof (BE (S K) (Nat.le_refl _)) as B2.
  assert (0 <= h * f lo) as HF0 by (apply Rmult_le_pos; lra).
  apply Rabs_le_between in Q1. apply Rabs_le_between in Q2. assert (- E <= h * sk - J <= E) as D1 by lra. assert (- E <= h * sn - I <= E) as D2 by lra.
  clear BE B1 B2 Q1 Q2 SN FN Lj HF HL HI HJ.
  set (r := sk / sn). assert (r * sn = sk /\ 0 <= r <= 1) as [Er Hr].
  { unfold r. destruct (Req_EM_T sn 0) as [Z0|NZ].
    - assert (sk = 0) as -> by lra. unfold Rdiv. rewrite !Rmult_0_l. lra.
    - split; [field; assumption|]. split; [apply Rdiv_le_0_compat; lra|]. apply Rmult_le_reg_r with sn; [lra|]. unfold Rdiv. rewrite Rmult_assoc, Rinv_l by assumption. lra. }
  replace (r - J / I) with ((h * sk - J + r * (I - h * sn)) / I).
  2:{ rewrite <- Er. field. lra. }
  unfold Rdiv. rewrite Rabs_mult, (Rabs_pos_eq (/ I)) by (left; now apply Rinv_0_lt_compat). apply Rmult_le_compat_r; [left; now apply Rinv_0_lt_compat|].
  apply Rabs_le_between. assert (- E <= r * (I - h * sn) <= E); [|lra]. assert (0 <= E) by lra. split; nra.
Qed.
Print Assumptions C135_close.

Example C135_case : exists lo hi xs g', let ds := [Exponential 1 0; Exponential 2 0] in
  Forall valid ds /\ range_of ds lo hi /\ cr_random_samples sequences seq_seed (fun g => (if Rlt_dec (g O) 1 then Rmax 0 (g O) else 0, fun i => g (S i))) ds (IsInt 5) None (fun _ => 1 / 2) = Ok (xs, g') /\ length xs = 5%nat.
Proof.
  destruct (exp_case 1 2 ltac:(lra) ltac:(lra) ltac:(lra)) as (V & Rg & B & F & Hz & _). do 2 eexists.
  destruct (C135_competing_risks sequences seq_seed (fun g => (if Rlt_dec (g O) 1 then Rmax 0 (g O) else 0, fun i => g (S i))) _ _ _ 5 None (fun _ => 1 / 2) V Rg B F Hz) as (xs & E & (Lx & _)); [|lia|exact I|].
  - intros g. cbn [fst]. destruct (Rlt_dec (g O) 1); [|lra]. split; [apply Rmax_l|]. apply Rmax_lub_lt; lra.
  - exists xs. eexists. cbv zeta. split; [exact V|]. split; [exact Rg|]. split; [exact E|]. rewrite Lx. apply first_length.
Qed.

(** ** C136 *)
Lemma count_all l : (count DrawZero l + count DrawFailure l + count DrawSurvivor l = length l)%nat.
Proof. unfold count. induction l as [|[] l IH]; cbn [filter draw_eqb length]; lia. Qed.
Lemma filter_split {A} (p : A -> bool) l : (length (filter (fun x => negb (p x)) l) + length (filter p l) = length l)%nat.
Proof. induction l as [|x l IH]; [reflexivity|]. cbn [filter]. destruct (p x); cbn [negb length]; lia. Qed.
Lemma dszi_run {G} (seeded : Z -> G) uniform std_draw fuel base DS ZI n rct seed g f c : ~ is_beta base ->
  dszi_samples G seeded uniform std_draw fuel base DS ZI (IsInt (Z.of_nat n)) rct seed g = Some (Ok (f, c)) ->
  let g0 := start seeded seed g in let classes := map (class_of DS ZI) (first_numbers uniform g0 n) in
  let g1 := start seeded seed (after uniform n g0) in
  (1 <= count DrawFailure classes)%nat /\ (length f + length c = n)%nat /\
  forall x, In x f -> (x = 0 /\ (1 <= count DrawZero classes)%nat) \/
    exists i, (i < n)%nat /\ (i < count DrawFailure classes)%nat /\ x = number (std_draw (standard base)) g1 i * cscale base + cloc base.
Proof.
  intros NB H g0 classes g1. unfold dszi_samples in H.
  destruct (match rct with None => if Rlt_dec DS 1 then Err ValueError else Ok 1 | Some t => Ok t end) as [t|e] eqn:ET; [|discriminate].
  destruct (check_count (IsInt (Z.of_nat n))) as [n1|e] eqn:EC; [|discriminate]. apply check_count_ok in EC. destruct EC as [EC Hn]. injection EC as EC. apply Nat2Z.inj in EC. subst n1.
  destruct (reseed G seeded seed g) as [g2|e] eqn:ES; [|discriminate]. apply reseed_ok in ES. destruct ES as [Hs ->]. fold g0 in H. rewrite draws_eq in H. fold classes in H.
  set (k := count DrawFailure classes) in *.
  assert (length classes = n) as LC by (unfold classes; rewrite map_length; apply first_length). pose proof (count_all classes) as CA. fold k in CA.
  destruct (random_samples G seeded std_draw fuel base (IsInt (Z.of_nat k)) seed (after uniform n g0)) as [[[f0 g3]|e]|] eqn:ER; try discriminate.
  assert (1 <= k)%nat as Hk.
  { destruct k as [|k0]; [|lia]. exfalso. unfold random_samples in ER. cbn in ER. discriminate. }
  rewrite samples_plain in ER by assumption. injection ER as E0 _. split; [assumption|].
  injection H as H. unfold dszi_random_samples in H. rewrite ET in H. cbn [bind] in H. rewrite (proj2 (Z.ltb_ge (Z.of_nat n) 1)) in H by lia. fold k in H.
  unfold base_samples in H. destruct k as [|k0] eqn:Ek; [lia|]. cbn [bind] in H. rewrite <- Ek in *.
  assert (length f0 = k) as L0 by (rewrite <- E0, map_length, first_length; reflexivity).
  assert (forall x, In x (repeat 0 (count DrawZero classes) ++ f0) -> (x = 0 /\ (1 <= count DrawZero classes)%nat) \/
    exists i, (i < n)%nat /\ (i < k)%nat /\ x = number (std_draw (standard base)) g1 i * cscale base + cloc base) as KI.
  { intros x Hx. apply in_app_or in Hx. destruct Hx as [Hx|Hx].
    - left. split; [now apply repeat_spec in Hx|]. destruct (count DrawZero classes); [destruct Hx|lia].
    - right. rewrite <- E0 in Hx. apply in_map_iff in Hx. destruct Hx as (y & <- & Hy). apply in_map_iff in Hy. destruct Hy as (i & <- & Hi). apply in_seq in Hi. exists i. split; [lia|]. split; [lia|reflexivity]. }
  set (all := repeat 0 (count DrawZero classes) ++ f0) in *. assert (length all = count DrawZero classes + k)%nat as LA by (unfold all; rewrite app_length, repeat_length, L0; reflexivity).
  match type of H with (if ?b then _ else _) = _ => destruct b end; injection H as <- <-.
  - split; [|intros x Hx; apply filter_In in Hx; now apply KI]. rewrite app_length, !repeat_length. pose proof (filter_split (fun x => Rltb' t x) all). lia.
  - split; [rewrite repeat_length; lia|exact KI].
Qed.

(** Failure times of a DSZI model drawn without a seed: samples of the base distribution from
    the numbers that follow those that decided who fails. *)
Theorem C136_unseeded_partial : forall G (seeded : Z -> G) uniform std_draw fuel base DS ZI n rct g f c,
  valid base -> ~ is_beta base ->
  dszi_samples G seeded uniform std_draw fuel base DS ZI (IsInt (Z.of_nat n)) rct None g = Some (Ok (f, c)) ->
  (length f + length c = n)%nat /\
  forall x, In x f -> x = 0 \/ exists i, (i < n)%nat /\ cdf base x = cdf (standard base) (number (std_draw (standard base)) (after uniform n g) i).
Proof.
  intros G seeded uniform std_draw fuel base DS ZI n rct g f c V NB H. destruct (dszi_run seeded uniform std_draw fuel base DS ZI n rct None g f c NB H) as (_ & L & In_f).
  cbn [start] in *. split; [assumption|]. intros x Hx. destruct (In_f x Hx) as [[-> _]|(i & Hi & _ & ->)]; [now left|]. right. exists i. split; [assumption|]. now rewrite cdf_standard.
Qed.
Print Assumptions C136_unseeded_partial.

(** With a seed the base distribution starts from the same numbers again. If it draws by
    inverting its distribution function, the failure times are its quantiles at the very
    numbers that decided who fails. *)
Definition inverts {G} (uniform : G -> R * G) (std_draw : dist -> G -> R * G) (d : dist) : Prop :=
  forall g, 0 < fst (uniform g) < 1 /\ std_draw (standard d) g = (ppf (standard d) (fst (uniform g)), snd (uniform g)).

Theorem C136_seed_reused : forall G (seeded : Z -> G) uniform std_draw fuel base DS ZI n rct s g f c,
  valid base -> ~ is_beta base -> inverts uniform std_draw base ->
  dszi_samples G seeded uniform std_draw fuel base DS ZI (IsInt (Z.of_nat n)) rct (Some s) g = Some (Ok (f, c)) ->
  let u := number uniform (seeded s) in let failing := filter (fun i => if Rle_dec ZI (u i) then if Rlt_dec (u i) DS then true else false else false) (seq 0 n) in
  forall x, In x f -> x = 0 \/ exists i, (i < length failing)%nat /\ x = ppf base (u i).
Proof.
  intros G seeded uniform std_draw fuel base DS ZI n rct s g f c V NB HI H u failing x Hx. destruct (dszi_run seeded uniform std_draw fuel base DS ZI n rct (Some s) g f c NB H) as (_ & _ & In_f).
  destruct (In_f x Hx) as [[-> _]|(i & Hi & Hc & ->)]; [now left|]. right. exists i. split.
  - eapply Nat.lt_le_trans; [exact Hc|]. apply Nat.eq_le_incl. unfold count, failing, first_numbers. cbn [start]. rewrite map_map. fold u. generalize (seq 0 n). intros l. induction l as [|j l IH]; [reflexivity|].
    cbn [map filter]. unfold class_of at 1. destruct (Rlt_dec (u j) ZI) as [A|A]; destruct (Rle_dec ZI (u j)) as [B|B]; try lra; cbn [draw_eqb]; [exact IH|]. destruct (Rlt_dec (u j) DS); cbn [draw_eqb length]; [now rewrite IH|exact IH].
  - cbn [start]. assert (forall k h, after (std_draw (standard base)) k h = after uniform k h) as EA.
    { induction k as [|k IH]; intros h; [reflexivity|]. cbn [after]. rewrite (proj2 (HI h)). cbn [snd]. apply IH. }
    unfold number at 1. rewrite EA. rewrite (proj2 (HI _)). cbn [fst]. fold (number uniform (seeded s) i). fold (u i). symmetry. apply ppf_standard; [assumption|]. apply HI.
Qed.
Print Assumptions C136_seed_reused.

(** So a seeded sample never fails early: of a model with half its items dead on arrival, the
    one sample drawn under any seed is never below the median of the base distribution, which
    samples without a seed are. *)
Definition clip (v : R) : R := if Rlt_dec 0 v then if Rlt_dec v 1 then v else 1 / 2 else 1 / 2.
Definition seq_unit (g : sequences) : R * sequences := (clip (g O), fun i => g (S i)).
Definition seq_inverse (d : dist) (g : sequences) : R * sequences := (ppf d (clip (g O)), fun i => g (S i)).
Lemma clip_range v : 0 < clip v < 1.
Proof. unfold clip. destruct (Rlt_dec 0 v); [destruct (Rlt_dec v 1)|]; lra. Qed.
Lemma clip_id v : 0 < v < 1 -> clip v = v.
Proof. intros H. unfold clip. destruct (Rlt_dec 0 v); [destruct (Rlt_dec v 1)|]; lra. Qed.

Theorem C136_seeded_refuted : exists base DS ZI, valid base /\ 0 < ZI < DS /\ DS <= 1 /\
  (forall G (seeded : Z -> G) uniform std_draw fuel s g f c, inverts uniform std_draw base ->
    dszi_samples G seeded uniform std_draw fuel base DS ZI (IsInt 1) None (Some s) g = Some (Ok (f, c)) -> forall x, In x f -> ppf base (1 / 2) <= x) /\
  inverts seq_unit seq_inverse base /\
  (exists seeded s g x, dszi_samples sequences seeded seq_unit seq_inverse 0 base DS ZI (IsInt 1) None (Some s) g = Some (Ok ([x], []))) /\
  (exists seeded g x, dszi_samples sequences seeded seq_unit seq_inverse 0 base DS ZI (IsInt 1) None None g = Some (Ok ([x], [])) /\ x < ppf base (1 / 2)).
Proof.
  set (base := Weibull 100 2 0). assert (valid base) as V by (unfold base; simpl; lra). assert (~ is_beta base) as NB by (intros []).
  exists base, 1, (1 / 2). split; [exact V|]. split; [lra|]. split; [lra|].
  assert (inverts seq_unit seq_inverse base) as HI by (intros g; split; [apply clip_range|reflexivity]). split; [|split; [exact HI|]].
  - intros G seeded uniform std_draw fuel s g f c HV H x Hx. pose proof (C136_seed_reused G seeded uniform std_draw fuel base 1 (1 / 2) 1 None s g f c V NB HV H) as K.
    cbv zeta in K. cbn [seq filter] in K. pose proof (HV (seeded s)) as [U _]. change (fst (uniform (seeded s))) with (number uniform (seeded s) 0) in U.
    destruct (dszi_run seeded uniform std_draw fuel base 1 (1 / 2) 1 None (Some s) g f c NB H) as (HC & _ & In_f).
    cbn [start] in HC, In_f. unfold count, first_numbers in HC, In_f. cbn [seq map filter] in HC, In_f. unfold class_of in HC, In_f.
    destruct (Rlt_dec (number uniform (seeded s) 0) (1 / 2)) as [A|A]; [cbn in HC; lia|].
    destruct (Rle_dec (1 / 2) (number uniform (seeded s) 0)) as [B|B]; [|lra]. destruct (Rlt_dec (number uniform (seeded s) 0) 1) as [D|D]; [|lra]. cbn [length draw_eqb] in K, In_f.
    assert (exists i, (i < 1)%nat /\ x = ppf base (number uniform (seeded s) i)) as (i & Hi & ->).
    { destruct (K x Hx) as [E0|E0]; [|exact E0]. destruct (In_f x Hx) as [[_ C]|(i & Hi & _ & E1)]; [cbn in C; lia|]. exists i. split; [assumption|]. rewrite E1.
      assert (i = O) as -> by lia. unfold number at 1. cbn [after]. rewrite (proj2 (HV _)). cbn [fst]. symmetry. apply ppf_standard; [assumption|]. apply HV. }
    assert (i = O) as -> by lia. apply ppf_le; [assumption|lra|assumption|lra].
  - assert (forall (seeded : Z -> sequences) seed (g : sequences) y, good_seed seed -> 1 / 2 <= y < 1 -> (start seeded seed g) O = y ->
      exists x, dszi_samples sequences seeded seq_unit seq_inverse 0 base 1 (1 / 2) (IsInt 1) None seed g = Some (Ok ([x], [])) /\ x = ppf base (clip ((start seeded seed (fun i => start seeded seed g (S i))) O))) as RUN.
    { intros seeded seed g y Hs Hy E. eexists. split; [|reflexivity]. unfold dszi_samples. destruct (Rlt_dec 1 1); [lra|]. change (check_count (IsInt 1)) with (Ok 1%nat). cbv iota.
      rewrite (proj2 (@reseed_ok sequences seeded seed g _) (conj Hs eq_refl)). cbn [draws seq_unit]. set (g1 := fun i => start seeded seed g (S i)). rewrite E, (clip_id y) by lra. cbn [map]. unfold class_of.
      destruct (Rlt_dec y (1 / 2)); [lra|]. destruct (Rlt_dec y 1); [|lra]. change (Z.of_nat (count DrawFailure [DrawFailure])) with (Z.of_nat 1).
      rewrite samples_plain by (assumption || lia). rewrite first_S. cbn [first_numbers seq map]. change (first_numbers (seq_inverse (standard base)) _ 0) with (@nil R). cbn [map seq_inverse fst].
      rewrite <- ppf_standard by (assumption || apply clip_range). unfold dszi_random_samples. cbn [bind]. destruct (Rlt_dec 1 1); [lra|]. reflexivity. }
    split.
    + destruct (RUN (fun _ _ => 3 / 4) (Some 5%Z) (fun _ => 1 / 2) (3 / 4) ltac:(simpl; lia) ltac:(lra) eq_refl) as (x & E & _). eexists _, _, _, x. exact E.
    + destruct (RUN (fun _ _ => 3 / 4) None (fun i => match i with O => 3 / 4 | _ => 1 / 4 end) (3 / 4) I ltac:(lra) eq_refl) as (x & E & Ex). eexists _, _, x. split; [exact E|]. rewrite Ex. cbn [start].
      rewrite clip_id by lra. apply ppf_lt; [assumption|lra|lra].
Qed.
Print Assumptions C136_seeded_refuted.
