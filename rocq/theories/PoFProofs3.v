(** Proofs about SN curves, stress-strain and strain-life. *)
From Coquelicot Require Import Coquelicot.
From Coq Require Import List Arith Reals Lra Lia Bool.
From Verif Require Import Base RealFacts RList Linear PoFModel PoFSpec PoFProofs PoFProofs2.
Import ListNotations.
Open Scope R_scope.

(** ** SN diagram *)
Definition sn_line (o : sn_out) (x : R) : R := sn_m o * log10 x + sn_c o.
Definition sn_limit (runout : option (list R)) (show : option bool) : option R :=
  match runout, show with None, _ | Some _, Some false => None | Some r, _ => Some (mean r) end.

Section SN.
  Variables (stress cycles : list R) (runout : option (list R)) (show : option bool)
    (method : bounds_method) (CI : R) (tinv : R -> nat -> R) (o : sn_out).
  Notation sn_pts := (combine (map log10 cycles) stress).
  Notation sn_line := (sn_line o).
  Notation sn_limit := (sn_limit runout show).
  Hypothesis Hok : SN_diagram stress cycles runout show method CI tinv = Ok o.

  Lemma sn_inv : length cycles = length stress /\ 0 < CI < 1 /\ Sxx sn_pts <> 0 /\
    sn_m o = lsq_slope sn_pts /\ sn_c o = lsq_intercept sn_pts /\
    sn_residual o = maxabs (map (fun p => sn_line (fst p) - snd p) (combine cycles stress)) /\
    sn_life o = (fun s => pow10 ((s - sn_c o) / sn_m o)) /\ sn_strength o = sn_line /\
    sn_curve o = (fun x => match sn_limit with None => sn_line x | Some e => Rmax (sn_line x) e end) /\
    match method with
    | NoBounds => sn_bounds o = None
    | Residual => exists e, sn_limit = Some e /\ sn_bounds o =
        Some (fun x => Rmax (sn_line x - sn_residual o) (e - sn_residual o), fun x => Rmax (sn_line x + sn_residual o) (e + sn_residual o))
    | Statistical =>
        let CL := fun x => tinv ((CI + 1) / 2) (length cycles - 2)%nat *
          sqrt (rsum (map (fun p => (snd p - sn_line (fst p)) ^ 2) (combine cycles stress)) / (INR (length cycles) - 2)) *
          sqrt (1 / INR (length cycles) + (x - mean cycles) ^ 2 / rsum (map (fun y => (y - mean cycles) ^ 2) cycles)) in
        sn_bounds o = Some (fun x => sn_curve o x - CL x, fun x => sn_curve o x + CL x)
    end.
  Proof.
    revert Hok. unfold SN_diagram, polyfit1.
    destruct (Nat.eqb_spec (length cycles) (length stress)) as [Hl|]; [|discriminate]. cbn [negb].
    destruct (Rle_dec CI 0); [discriminate|]. destruct (Rle_dec 1 CI); [discriminate|].
    destruct (Req_EM_T (Sxx sn_pts) 0) as [|HS]; [discriminate|].
    intros H. split; [exact Hl|]. split; [lra|]. split; [exact HS|].
    assert (match runout with
            | Some r => match show with Some true => Some (mean r) | Some false => None | None => Some (mean r) end
            | None => None end = sn_limit) as El.
    { destruct runout, show as [[|]|]; reflexivity. }
    rewrite El in H. destruct method; cbn [bind] in H.
    - injection H as <-. cbn. repeat split; reflexivity.
    - destruct sn_limit as [e|] eqn:Elim; cbn [bind] in H; [|discriminate]. injection H as <-. cbn.
      repeat split; try reflexivity. exists e. split; reflexivity.
    - injection H as <-. cbn. repeat split; reflexivity.
  Qed.

  Lemma sn_inverse : sn_m o <> 0 ->
    (forall N, 0 < N -> sn_life o (sn_strength o N) = N) /\ (forall s, sn_strength o (sn_life o s) = s /\ 0 < sn_life o s).
  Proof.
    intros Hm. destruct sn_inv as (_ & _ & _ & _ & _ & _ & -> & -> & _). split.
    - intros N HN. unfold sn_line. rewrite <- (pow10_log10 N HN) at 2. f_equal. field. exact Hm.
    - intros s. split; [|apply pow10_pos]. unfold sn_line. rewrite log10_pow10. field. exact Hm.
  Qed.

  Lemma sn_least_squares m c : sse sn_pts (sn_m o) (sn_c o) <= sse sn_pts m c.
  Proof. destruct sn_inv as (_ & _ & HS & -> & -> & _). now apply lsq_optimal. Qed.

  Lemma maxabs_ge l x : In x l -> Rabs x <= maxabs l.
  Proof.
    induction l as [|y l IH]; intros H; [destruct H|]. cbn. destruct H as [->|H]; [apply Rmax_l|].
    eapply Rle_trans; [now apply IH|apply Rmax_r].
  Qed.
  Lemma maxabs_nonneg l : 0 <= maxabs l.
  Proof. induction l; cbn; [lra|]. eapply Rle_trans; [exact IHl|apply Rmax_r]. Qed.

  Lemma sn_residual_bounds lo up : sn_bounds o = Some (lo, up) -> method = Residual ->
    forall x y, In (x, y) (combine cycles stress) -> y <= up x /\
      ((forall e, sn_limit = Some e -> e - sn_residual o <= y) -> lo x <= y).
  Proof.
    intros Hb Hm x y Hin. destruct sn_inv as (_ & _ & _ & _ & _ & Hr & _ & _ & _ & B). rewrite Hm in B.
    destruct B as (e & He & B). rewrite B in Hb. injection Hb as <- <-.
    assert (Rabs (sn_line x - y) <= sn_residual o) as HA.
    { rewrite Hr. apply maxabs_ge. apply (in_map (fun p => sn_line (fst p) - snd p)) in Hin. exact Hin. }
    apply Rabs_le_between in HA. split.
    - eapply Rle_trans; [|apply Rmax_l]. lra.
    - intros Hlim. apply Rmax_lub; [lra|now apply Hlim].
  Qed.

  Lemma sn_stat_symmetric lo up : sn_bounds o = Some (lo, up) -> method = Statistical ->
    (forall p k, 0 <= tinv p k) ->
    forall x, lo x <= sn_curve o x <= up x /\ up x - sn_curve o x = sn_curve o x - lo x.
  Proof.
    intros Hb Hm Ht x. destruct sn_inv as (_ & _ & _ & _ & _ & _ & _ & _ & _ & B). rewrite Hm in B. rewrite B in Hb. injection Hb as <- <-.
    set (cl := tinv _ _ * _ * _). assert (0 <= cl) by (unfold cl; repeat apply Rmult_le_pos; [apply Ht|apply sqrt_pos|apply sqrt_pos]).
    lra.
  Qed.

  Lemma sn_trace_on_curve x : (forall e, sn_limit = Some e -> e <= sn_strength o x) -> sn_curve o x = sn_strength o x.
  Proof.
    intros H. destruct sn_inv as (_ & _ & _ & _ & _ & _ & _ & E & C & _). rewrite E in *. rewrite C.
    destruct sn_limit as [e|]; [|reflexivity]. apply Rmax_left. now apply H.
  Qed.
  Lemma sn_trace_off_curve x e : sn_limit = Some e -> sn_strength o x < e -> sn_curve o x <> sn_strength o x.
  Proof.
    intros Hl H. destruct sn_inv as (_ & _ & _ & _ & _ & _ & _ & E & C & _). rewrite E in *. rewrite C, Hl.
    rewrite Rmax_right; lra.
  Qed.
End SN.

Lemma sn_residual_no_runout stress cycles show CI tinv :
  length cycles = length stress -> 0 < CI < 1 -> Sxx (combine (map log10 cycles) stress) <> 0 ->
  SN_diagram stress cycles None show Residual CI tinv = Err NameError.
Proof.
  intros Hl HCI HS. unfold SN_diagram, polyfit1. rewrite Hl, Nat.eqb_refl. cbn [negb].
  destruct (Rle_dec CI 0); [lra|]. destruct (Rle_dec 1 CI); [lra|].
  destruct (Req_EM_T (Sxx (combine (map log10 cycles) stress)) 0); [contradiction|]. reflexivity.
Qed.

(** Existence of results. *)
Lemma sn_exists stress cycles runout show method CI tinv :
  length cycles = length stress -> 0 < CI < 1 -> Sxx (combine (map log10 cycles) stress) <> 0 ->
  (method = Residual -> sn_limit runout show <> None) ->
  exists o, SN_diagram stress cycles runout show method CI tinv = Ok o.
Proof.
  intros Hl HCI HS Hm. unfold SN_diagram, polyfit1. rewrite Hl, Nat.eqb_refl. cbn [negb].
  destruct (Rle_dec CI 0); [lra|]. destruct (Rle_dec 1 CI); [lra|].
  destruct (Req_EM_T (Sxx (combine (map log10 cycles) stress)) 0); [contradiction|].
  destruct method; cbn [bind]; try (eexists; reflexivity).
  specialize (Hm eq_refl). destruct runout, show as [[|]|]; try (exfalso; apply Hm; reflexivity); eexists; reflexivity.
Qed.

(** A concrete diagram: three failures at 1, 10 and 100 cycles. *)
Lemma log10_1 : log10 1 = 0.
Proof. unfold log10. rewrite ln_1. unfold Rdiv. ring. Qed.
Lemma log10_10 : log10 10 = 1.
Proof. unfold log10. field. pose proof ln10_pos. lra. Qed.
Lemma log10_100 : log10 100 = 2.
Proof. replace 100 with (10 * 10) by ring. rewrite log10_mult, log10_10 by lra. ring. Qed.
Lemma three_pts (s1 s2 s3 : R) : combine (map log10 [1; 10; 100]) [s1; s2; s3] = [(0, s1); (1, s2); (2, s3)].
Proof. cbn [map combine]. now rewrite log10_1, log10_10, log10_100. Qed.
Lemma three_fit (s1 s2 s3 : R) : let p := [(0, s1); (1, s2); (2, s3)] in
  Sxx p = 2 /\ lsq_slope p = (s3 - s1) / 2 /\ lsq_intercept p = (s1 + s2 + s3) / 3 - (s3 - s1) / 2.
Proof.
  intros p. assert (mean (map fst p) = 1) as Mx by (unfold mean, rsum; cbn; lra).
  assert (mean (map snd p) = (s1 + s2 + s3) / 3) as My by (unfold mean, rsum; cbn; lra).
  assert (Sxx p = 2) as E by (unfold Sxx; rewrite Mx; unfold rsum; cbn; lra).
  assert (Sxy p = s3 - s1) as E2 by (unfold Sxy; rewrite Mx, My; unfold rsum; cbn; lra).
  split; [exact E|]. unfold lsq_intercept, lsq_slope. rewrite E, E2, Mx, My. split; lra.
Qed.

Lemma sn_bounds_miss : exists stress cycles runout CI, forall tinv, exists o lo up,
  SN_diagram stress cycles (Some runout) None Residual CI tinv = Ok o /\ sn_bounds o = Some (lo, up) /\
  exists x y, In (x, y) (combine cycles stress) /\ y < lo x.
Proof.
  exists [30; 20; 10], [1; 10; 100], [40], 0.95. intros tinv.
  destruct (three_fit 30 20 10) as (E1 & E2 & E3).
  destruct (sn_exists [30; 20; 10] [1; 10; 100] (Some [40]) None Residual 0.95 tinv) as (o & Ho); try reflexivity; [lra|rewrite three_pts, E1; lra|discriminate|].
  exists o. destruct (sn_inv _ _ _ _ _ _ _ o Ho) as (_ & _ & _ & Em & Ec & Er & _ & _ & _ & (e & He & Hb)).
  rewrite three_pts in Em, Ec. rewrite E2 in Em. rewrite E3 in Ec.
  do 2 eexists. split; [exact Ho|]. split; [exact Hb|]. exists 100, 10. split; [right; right; now left|].
  assert (e = 40) as -> by (cbn in He; injection He as <-; unfold mean, rsum; cbn; lra).
  assert (sn_residual o = 0) as ->.
  { rewrite Er. unfold sn_line. cbn [combine map fst snd]. rewrite log10_1, log10_10, log10_100, Em, Ec. cbn.
    replace ((10 - 30) / 2 * 0 + ((30 + 20 + 10) / 3 - (10 - 30) / 2) - 30) with 0 by field.
    replace ((10 - 30) / 2 * 1 + ((30 + 20 + 10) / 3 - (10 - 30) / 2) - 20) with 0 by field.
    replace ((10 - 30) / 2 * 2 + ((30 + 20 + 10) / 3 - (10 - 30) / 2) - 10) with 0 by field.
    rewrite Rabs_R0. rewrite !(Rmax_left 0 0) by lra. reflexivity. }
  eapply Rlt_le_trans; [|apply Rmax_r]. lra.
Qed.

Lemma sn_trace_wrong : exists stress cycles runout CI, forall tinv, exists o x,
  SN_diagram stress cycles (Some runout) None NoBounds CI tinv = Ok o /\ 0 < x /\ sn_curve o x <> sn_strength o x.
Proof.
  exists [30; 20; 10], [1; 10; 100], [40], 0.95. intros tinv.
  destruct (three_fit 30 20 10) as (E1 & E2 & E3).
  destruct (sn_exists [30; 20; 10] [1; 10; 100] (Some [40]) None NoBounds 0.95 tinv) as (o & Ho); try reflexivity; [lra|rewrite three_pts, E1; lra|discriminate|].
  exists o, 10. split; [exact Ho|]. split; [lra|].
  apply (sn_trace_off_curve _ _ _ _ _ _ _ o Ho 10 (mean [40])); [reflexivity|].
  destruct (sn_inv _ _ _ _ _ _ _ o Ho) as (_ & _ & _ & Em & Ec & _ & _ & Es & _).
  rewrite three_pts in Em, Ec. rewrite E2 in Em. rewrite E3 in Ec.
  rewrite Es. unfold sn_line. rewrite log10_10, Em, Ec. unfold mean, rsum. cbn. lra.
Qed.

(** The statistical bounds are not the confidence band of the fitted line. *)
Lemma sn_stat_wrong : exists stress cycles CI, forall tinv, 0 < tinv ((CI + 1) / 2) 1%nat -> exists o lo up x,
  SN_diagram stress cycles None None Statistical CI tinv = Ok o /\ sn_bounds o = Some (lo, up) /\ 0 < x /\
  up x - sn_curve o x <> band_halfwidth (combine (map log10 cycles) stress) (sn_m o) (sn_c o) (tinv ((CI + 1) / 2) (length cycles - 2)%nat) (log10 x).
Proof.
  exists [1; 0; 1], [1; 10; 100], 0.95. intros tinv Ht.
  destruct (three_fit 1 0 1) as (E1 & E2 & E3).
  destruct (sn_exists [1; 0; 1] [1; 10; 100] None None Statistical 0.95 tinv) as (o & Ho); try reflexivity; [lra|rewrite three_pts, E1; lra|discriminate|].
  exists o. destruct (sn_inv _ _ _ _ _ _ _ o Ho) as (_ & _ & _ & Em & Ec & _ & _ & _ & _ & Hb).
  rewrite three_pts in Em, Ec. rewrite E2 in Em. rewrite E3 in Ec.
  do 2 eexists. exists 10. split; [exact Ho|]. split; [exact Hb|]. split; [lra|].
  cbn beta. cbn [length Nat.sub]. set (tv := tinv ((0.95 + 1) / 2) 1%nat) in *.
  assert (rsum (map (fun p => (snd p - sn_line o (fst p)) ^ 2) (combine [1; 10; 100] [1; 0; 1])) = 2 / 3) as ->.
  { cbn [combine map fst snd]. unfold sn_line. rewrite log10_1, log10_10, log10_100, Em, Ec. unfold rsum. cbn. lra. }
  assert (mean [1; 10; 100] = 37) as -> by (unfold mean, rsum; cbn; lra).
  assert (rsum (map (fun y => (y - 37) ^ 2) [1; 10; 100]) = 5994) as -> by (unfold rsum; cbn; lra).
  unfold band_halfwidth. rewrite three_pts, E1.
  assert (sse [(0, 1); (1, 0); (2, 1)] (sn_m o) (sn_c o) = 2 / 3) as ->.
  { rewrite Em, Ec. unfold sse, rsum. cbn. lra. }
  assert (mean (map fst [(0, 1); (1, 0); (2, 1)]) = 1) as -> by (unfold mean, rsum; cbn; lra).
  rewrite log10_10. cbn [length]. replace (INR 3) with 3 by (cbn; ring).
  replace (2 / 3 / (3 - 2)) with (2 / 3) by lra.
  replace (1 / 3 + (1 - 1) ^ 2 / 2) with (1 / 3) by lra.
  assert (sqrt (1 / 3) < sqrt (1 / 3 + (10 - 37) ^ 2 / 5994)) as Hlt by (apply sqrt_lt_1; lra).
  assert (0 < tv * sqrt (2 / 3)) as Hp by (apply Rmult_lt_0_compat; [exact Ht|apply sqrt_lt_R0; lra]).
  pose proof (Rmult_lt_compat_l _ _ _ Hp Hlt). lra.
Qed.

(** ** Material parameters from data *)
Lemma Rpower_inj_base x y p : 0 < x -> 0 < y -> p <> 0 -> Rpower x p = Rpower y p -> x = y.
Proof.
  intros Hx Hy Hp H. unfold Rpower in H. apply exp_inv in H. apply Rmult_eq_reg_l in H; [|exact Hp]. now apply ln_inv.
Qed.
Lemma log10_inj x y : 0 < x -> 0 < y -> log10 x = log10 y -> x = y.
Proof. intros Hx Hy H. rewrite <- (pow10_log10 x Hx), <- (pow10_log10 y Hy). now rewrite H. Qed.
Lemma combine_map2 {A} (f g : A -> R) l : combine (map f l) (map g l) = map (fun p => (f p, g p)) l.
Proof. induction l as [|p l IH]; [reflexivity|]. cbn. now rewrite IH. Qed.

Lemma polyfit_exact {A} (f g : A -> R) (l : list A) m c x y : In x l -> In y l -> f x <> f y ->
  (forall a, In a l -> g a = m * f a + c) -> polyfit1 (map f l) (map g l) = Some (m, c).
Proof.
  intros Hx Hy Hne H. unfold polyfit1. rewrite combine_map2.
  assert (Sxx (map (fun p => (f p, g p)) l) <> 0) as HS.
  { intros E. apply Hne. pose proof (proj1 (Sxx_zero _) E (f x, g x) (f y, g y)) as Z. apply Z.
    - apply (in_map (fun p => (f p, g p))). exact Hx.
    - apply (in_map (fun p => (f p, g p))). exact Hy. }
  destruct (Req_EM_T (Sxx (map (fun p => (f p, g p)) l)) 0); [contradiction|].
  destruct (lsq_exact (map (fun p => (f p, g p)) l) m c HS) as [-> ->]; [|reflexivity].
  intros p Hp. apply in_map_iff in Hp. destruct Hp as (a & <- & Ha). cbn. now apply H.
Qed.

Lemma on_RO_map E K n strain stress : on_RO E K n strain stress ->
  strain = map (RO E K n) stress /\ Forall (fun s => 0 < s) stress.
Proof. induction 1 as [|e s es ss [Hs He] _ [IH1 IH2]]; [split; constructor|]. cbn. subst. split; [reflexivity|now constructor]. Qed.

Lemma plastic_map E K n stress :
  map (fun p => fst p - snd p) (combine (map (RO E K n) stress) (map (fun s => s / E) stress)) =
  map (fun s => Rpower (s / K) (1 / n)) stress.
Proof. rewrite combine_map2, map_map. apply map_ext. intros s. cbn. unfold RO. ring. Qed.

Lemma params_K_n E K n strain stress : 0 < K -> n <> 0 -> on_RO E K n strain stress ->
  (exists s s', In s stress /\ In s' stress /\ s <> s') ->
  params_from_data strain stress E None = Some {| p_K := K; p_n := n; p_life := None |}.
Proof.
  intros HK Hn H (s & s' & Hs & Hs' & Hne). apply on_RO_map in H. destruct H as [-> Hpos]. rewrite Forall_forall in Hpos.
  unfold params_from_data. rewrite plastic_map, map_map.
  rewrite (polyfit_exact (fun s => log10 (Rpower (s / K) (1 / n))) log10 stress n (log10 K) s s' Hs Hs').
  - now rewrite pow10_log10.
  - intros E1. apply Hne. apply log10_inj in E1; try apply Rpower_gt_0.
    pose proof (Hpos s Hs). pose proof (Hpos s' Hs').
    apply Rpower_inj_base in E1; [apply Rmult_eq_reg_r in E1; [exact E1|apply Rinv_neq_0_compat; lra]
      |now apply Rdiv_lt_0_compat|now apply Rdiv_lt_0_compat|].
    unfold Rdiv. rewrite Rmult_1_l. now apply Rinv_neq_0_compat.
  - intros a Ha. pose proof (Hpos a Ha). rewrite log10_Rpower.
    replace (n * (1 / n * log10 (a / K)) + log10 K) with (log10 (a / K) + log10 K) by (field; exact Hn).
    rewrite <- log10_mult by (try apply Rdiv_lt_0_compat; assumption). f_equal. field. lra.
Qed.

Lemma Forall2_combine {A B} (P : A -> B -> Prop) l m : Forall2 P l m -> forall p, In p (combine l m) -> P (fst p) (snd p).
Proof. induction 1; intros p Hp; [destruct Hp|]. destruct Hp as [<-|Hp]; [assumption|auto]. Qed.
Lemma Forall2_map_fst {A B} (P : A -> B -> Prop) l m : Forall2 P l m -> l = map fst (combine l m) /\ m = map snd (combine l m).
Proof. induction 1 as [|x y l m _ _ [IH1 IH2]]; [split; reflexivity|]. cbn. rewrite <- IH1, <- IH2. auto. Qed.

Lemma params_all E K n sigma_f b epsilon_f c strain stress cycles :
  0 < E -> 0 < K -> n <> 0 -> 0 < sigma_f -> 0 < epsilon_f ->
  on_RO E K n strain stress -> on_life E K n sigma_f b epsilon_f c cycles stress ->
  (exists s s', In s stress /\ In s' stress /\ s <> s') -> (exists N N', In N cycles /\ In N' cycles /\ N <> N') ->
  params_from_data strain stress E (Some cycles) = Some {| p_K := K; p_n := n; p_life := Some (sigma_f, b, epsilon_f, c) |}.
Proof.
  intros HE HK Hn Hsf Hef H1 H2 Hs (N & N' & HN & HN' & HNe). pose proof (params_K_n E K n strain stress HK Hn H1 Hs) as P1.
  unfold params_from_data in *. destruct (polyfit1 _ _) as [[f0 f1]|]; [|discriminate]. injection P1 as P1 P2. rewrite P1, P2. clear P1 P2.
  apply on_RO_map in H1. destruct H1 as [-> Hpos]. rewrite plastic_map.
  pose proof (Forall2_combine _ _ _ H2) as G. destruct (Forall2_map_fst _ _ _ H2) as [Ec Es].
  set (q := combine cycles stress) in *. rewrite Ec in HN, HN'. rewrite Ec, Es, !map_map.
  apply in_map_iff in HN. destruct HN as (x & <- & Hx). apply in_map_iff in HN'. destruct HN' as (y & <- & Hy).
  assert (log10 (2 * fst x) <> log10 (2 * fst y)) as Hd.
  { intros E1. apply HNe. destruct (G x Hx) as [? _]. destruct (G y Hy) as [? _]. apply log10_inj in E1; lra. }
  rewrite (polyfit_exact (fun p => log10 (2 * fst p)) (fun p => log10 (snd p / E)) q b (log10 (sigma_f / E)) x y Hx Hy Hd).
  2:{ intros p Hp. destruct (G p Hp) as (H0 & E1 & _). rewrite E1. rewrite log10_mult, log10_Rpower; [ring|now apply Rdiv_lt_0_compat|apply Rpower_gt_0]. }
  rewrite (polyfit_exact (fun p => log10 (2 * fst p)) (fun p => log10 (Rpower (snd p / K) (1 / n))) q c (log10 epsilon_f) x y Hx Hy Hd).
  2:{ intros p Hp. destruct (G p Hp) as (H0 & _ & E1). rewrite E1. rewrite log10_mult, log10_Rpower; [ring|assumption|apply Rpower_gt_0]. }
  rewrite !pow10_log10 by (try apply Rdiv_lt_0_compat; assumption). replace (E * (sigma_f / E)) with sigma_f by (field; lra). reflexivity.
Qed.

(** ** Hysteresis loops *)
Lemma rpow_nonneg x y : 0 <= x -> 0 < y -> exists p, rpow x y = Some p /\ 0 <= p /\ (x = 0 -> p = 0) /\ (0 < x -> p = Rpower x y).
Proof.
  intros Hx Hy. unfold rpow. destruct (Rlt_dec 0 x) as [H|H].
  - eexists. split; [reflexivity|]. pose proof (Rpower_gt_0 x y). repeat split; lra.
  - assert (x = 0) as -> by lra. destruct (Req_EM_T 0 0); [|congruence]. destruct (Rlt_dec 0 y); [|contradiction].
    eexists. split; [reflexivity|]. repeat split; lra.
Qed.
Lemma rpow_incr x x' y p p' : 0 <= x -> x < x' -> 0 < y -> rpow x y = Some p -> rpow x' y = Some p' -> p < p'.
Proof.
  intros Hx Hlt Hy. destruct (rpow_nonneg x y Hx Hy) as (q & -> & Hq & Z0 & Z1).
  destruct (rpow_nonneg x' y ltac:(lra) Hy) as (q' & -> & Hq' & _ & Z1'). intros [= <-] [= <-].
  rewrite Z1' by lra. destruct (Req_dec x 0) as [E|]; [rewrite (Z0 E); apply Rpower_gt_0|]. rewrite Z1 by lra.
  apply Rlt_Rpower_l; [exact Hy|lra].
Qed.

Section Loops.
  Variables E K n : R.
  Hypotheses (HE : 0 < E) (HK : 0 < K) (Hn : 0 < n).
  Lemma inv_n_pos : 0 < 1 / n.
  Proof. apply Rdiv_lt_0_compat; lra. Qed.

  Lemma delta_root_unique e x y : 0 <= x -> 0 <= y ->
    root (ramberg_osgood_delta E K n e) x -> root (ramberg_osgood_delta E K n e) y -> x = y.
  Proof.
    assert (forall x y, 0 <= x -> x < y -> root (ramberg_osgood_delta E K n e) x -> root (ramberg_osgood_delta E K n e) y -> False) as G.
    { clear x y. intros x y Hx Hlt. unfold root, ramberg_osgood_delta.
      assert (0 < / (2 * K)) by (apply Rinv_0_lt_compat; lra).
      destruct (rpow (x / (2 * K)) (1 / n)) as [p|] eqn:E1; [|discriminate]. destruct (rpow (y / (2 * K)) (1 / n)) as [q|] eqn:E2; [|discriminate].
      intros [= Z1] [= Z2]. pose proof (rpow_incr (x / (2 * K)) (y / (2 * K)) (1 / n) p q) as Hi.
      assert (p < q).
      { apply Hi; auto; [apply Rmult_le_pos; lra|apply Rmult_lt_compat_r; lra|apply inv_n_pos]. }
      assert (x / E < y / E) by (apply Rmult_lt_compat_r; [now apply Rinv_0_lt_compat|exact Hlt]). lra. }
    intros Hx Hy R1 R2. destruct (Rtotal_order x y) as [H|[H|H]]; [exfalso; eauto|exact H|exfalso; eauto].
  Qed.
  Lemma delta_root_zero : root (ramberg_osgood_delta E K n 0) 0.
  Proof.
    unfold root, ramberg_osgood_delta. replace (0 / (2 * K)) with 0 by (unfold Rdiv; ring).
    destruct (rpow_nonneg 0 (1 / n) ltac:(lra) inv_n_pos) as (p & -> & _ & Z & _). rewrite (Z eq_refl). f_equal. unfold Rdiv. ring.
  Qed.
  Lemma delta_root_double e s : 0 <= s -> root (ramberg_osgood E K n e) s -> root (ramberg_osgood_delta E K n (2 * e)) (2 * s).
  Proof.
    intros Hs. unfold root, ramberg_osgood, ramberg_osgood_delta. replace (2 * s / (2 * K)) with (s / K) by (field; lra).
    destruct (rpow (s / K) (1 / n)) as [p|]; [|discriminate]. intros [= Z]. f_equal.
    replace (2 * s / E + 2 * p - 2 * e) with (2 * (s / E + p - e)) by (unfold Rdiv; ring). rewrite Z. ring.
  Qed.

  Lemma Forall2_last {A B} (P : A -> B -> Prop) l m a b : Forall2 P l m -> l <> [] -> P (last l a) (last m b).
  Proof.
    induction 1 as [|x y l m Hxy HF IH]; intros Hne; [congruence|]. destruct HF as [|x' y' l m Hxy' HF]; [exact Hxy|].
    cbn [last] in *. apply IH. discriminate.
  Qed.
  Lemma Forall_last {A} (P : A -> Prop) l a : Forall P l -> l <> [] -> P (last l a).
  Proof. induction 1 as [|x l Hx HF IH]; intros Hne; [congruence|]. destruct HF; [exact Hx|]. cbn [last]. apply IH. discriminate. Qed.
  Lemma last_map {A B} (f : A -> B) l a b : l <> [] -> last (map f l) b = f (last l a).
  Proof. induction l as [|x l IH]; intros H; [congruence|]. destruct l as [|y l]; [reflexivity|]. cbn [map last] in *. apply IH. discriminate. Qed.

  Lemma n1000 : exists k, N.to_nat 1000 = S (S k).
  Proof. exists (N.to_nat 1000 - 2)%nat. vm_compute. reflexivity. Qed.
  Lemma linspace1000_ne a b : linspace1000 a b <> [].
  Proof. unfold linspace1000. destruct n1000 as (k & ->). discriminate. Qed.
  Lemma linspace1000_hd a b : exists r, linspace1000 a b = a :: r.
  Proof. unfold linspace1000. destruct n1000 as (k & ->). cbn [seq map]. eexists. f_equal. cbn [INR]. ring. Qed.
  Lemma linspace1000_last a b z : last (linspace1000 a b) z = b.
  Proof.
    unfold linspace1000. destruct n1000 as (k & ->). rewrite (last_map _ _ O) by discriminate.
    replace (last (seq 0 (S (S k))) O) with (S k).
    - cbn [Nat.sub]. field. apply not_0_INR. lia.
    - rewrite seq_S. rewrite last_last. lia.
  Qed.
  Lemma Forall2_ne {A B} (P : A -> B -> Prop) l m : Forall2 P l m -> l <> [] -> m <> [].
  Proof. destruct 1; congruence. Qed.

  Variables emax emin : R.
  Variable dir : direction.
  Variables s1 d2 d3 : list R.
  Hypothesis Hrun : loop_run E K n emax emin dir s1 d2 d3.

  Let s2 := reversal2 dir s1 d2.
  Let s3 := reversal3 dir s2 d3.

  Lemma d2_d3_last : last d2 0 = last d3 0 /\ root (ramberg_osgood_delta E K n (emax - emin)) (last d2 0) /\ 0 <= last d2 0.
  Proof.
    pose proof (Forall2_last _ _ _ 0 0 (run_d2 _ _ _ _ _ _ _ _ _ Hrun) (linspace1000_ne _ _)) as R2.
    pose proof (Forall2_last _ _ _ 0 0 (run_d3 _ _ _ _ _ _ _ _ _ Hrun) (linspace1000_ne _ _)) as R3.
    rewrite linspace1000_last in R2, R3.
    pose proof (Forall_last _ _ 0 (run_sign2 _ _ _ _ _ _ _ _ _ Hrun) (Forall2_ne _ _ _ (run_d2 _ _ _ _ _ _ _ _ _ Hrun) (linspace1000_ne _ _))) as P2.
    pose proof (Forall_last _ _ 0 (run_sign3 _ _ _ _ _ _ _ _ _ Hrun) (Forall2_ne _ _ _ (run_d3 _ _ _ _ _ _ _ _ _ Hrun) (linspace1000_ne _ _))) as P3.
    split; [|auto]. eapply delta_root_unique; eauto.
  Qed.
  Lemma s2_last : last s2 0 = match dir with Tension => last s1 0 - last d2 0 | Compression => last s1 0 + last d2 0 end.
  Proof. unfold s2, reversal2. apply (last_map (fun d => match dir with Tension => last s1 0 - d | Compression => last s1 0 + d end)).
    exact (Forall2_ne _ _ _ (run_d2 _ _ _ _ _ _ _ _ _ Hrun) (linspace1000_ne _ _)). Qed.
  Lemma s3_last : last s3 0 = match dir with Tension => last s2 0 + last d3 0 | Compression => last s2 0 - last d3 0 end.
  Proof. unfold s3, reversal3. apply (last_map (fun d => match dir with Tension => last s2 0 + d | Compression => last s2 0 - d end)).
    exact (Forall2_ne _ _ _ (run_d3 _ _ _ _ _ _ _ _ _ Hrun) (linspace1000_ne _ _)). Qed.

  Lemma hysteresis_closes : last s3 0 = last s1 0.
  Proof. rewrite s3_last, s2_last. destruct d2_d3_last as [-> _]. destruct dir; ring. Qed.

  Lemma hd_zero d : Forall2 (fun e d => root (ramberg_osgood_delta E K n e) d) (linspace1000 0 (emax - emin)) d ->
    Forall (fun d => 0 <= d) d -> exists r, d = 0 :: r.
  Proof.
    intros HF HN. destruct (linspace1000_hd 0 (emax - emin)) as (r & Er). rewrite Er in HF. inversion HF as [|? y ? r' Hy _]; subst.
    inversion HN; subst. exists r'. f_equal. eapply delta_root_unique; [assumption| |exact Hy|exact delta_root_zero]. lra.
  Qed.
  Lemma hysteresis_continuous : hd 0 s2 = last s1 0 /\ hd 0 s3 = last s2 0.
  Proof.
    destruct (hd_zero d2 (run_d2 _ _ _ _ _ _ _ _ _ Hrun) (run_sign2 _ _ _ _ _ _ _ _ _ Hrun)) as (r2 & E2).
    destruct (hd_zero d3 (run_d3 _ _ _ _ _ _ _ _ _ Hrun) (run_sign3 _ _ _ _ _ _ _ _ _ Hrun)) as (r3 & E3).
    split.
    - unfold s2, reversal2. rewrite E2. cbn [map hd]. destruct dir; ring.
    - unfold s3, reversal3. rewrite E3. cbn [map hd]. destruct dir; ring.
  Qed.

  Lemma hysteresis_symmetric : dir = Tension -> emin = - emax -> last s2 0 = - last s1 0.
  Proof.
    intros Hdir Hmin. rewrite s2_last. destruct d2_d3_last as (_ & R & P).
    pose proof (Forall2_last _ _ _ 0 0 (run_s1 _ _ _ _ _ _ _ _ _ Hrun) (linspace1000_ne _ _)) as R1.
    rewrite linspace1000_last in R1.
    pose proof (Forall_last _ _ 0 (run_sign1 _ _ _ _ _ _ _ _ _ Hrun) (Forall2_ne _ _ _ (run_s1 _ _ _ _ _ _ _ _ _ Hrun) (linspace1000_ne _ _))) as P1.
    rewrite Hdir in *. simpl in P1.
    replace (emax - emin) with (2 * emax) in R by lra.
    assert (0 <= 2 * last s1 0) as P1' by lra.
    pose proof (delta_root_unique _ _ _ P P1' R (delta_root_double _ _ P1 R1)). lra.
  Qed.
End Loops.

(** In compression the equation handed to the solver has no root unless 1/n is an integer. *)
Lemma compression_no_root E K n e s : 0 < E -> 0 < K -> 0 < n -> e < 0 -> (forall z : Z, 1 / n <> IZR z) ->
  ~ root (ramberg_osgood E K n e) s.
Proof.
  intros HE HK Hn He Hint. assert (0 < 1 / n) as Hn1 by (apply Rdiv_lt_0_compat; lra). unfold root, ramberg_osgood. intros H.
  assert (0 < / K) by now apply Rinv_0_lt_compat. assert (0 < / E) by now apply Rinv_0_lt_compat.
  destruct (Rle_dec 0 s) as [Hs|Hs].
  - destruct (rpow_nonneg (s / K) (1 / n)) as (p & Ep & Hp & _); [apply Rmult_le_pos; lra|exact Hn1|]. rewrite Ep in H. injection H as H.
    assert (0 <= s / E) by (apply Rmult_le_pos; lra). lra.
  - unfold rpow in H. assert (s / K < 0) by (unfold Rdiv; nra). destruct (Rlt_dec 0 (s / K)); [lra|]. destruct (Req_EM_T (s / K) 0); [lra|].
    destruct (Req_EM_T (1 / n) (IZR (Int_part (1 / n)))) as [Ei|]; [exact (Hint _ Ei)|discriminate].
Qed.

Lemma powerRZ_odd x k : powerRZ (- x) (Z.of_nat (2 * k + 1)) = - powerRZ x (Z.of_nat (2 * k + 1)).
Proof. rewrite <- !pow_powerRZ. replace (2 * k + 1)%nat with (S (2 * k)) by lia. cbn [pow]. rewrite !pow_mult. replace ((- x) ^ 2) with (x ^ 2) by ring. ring. Qed.
Lemma Int_part_IZR z : Int_part (IZR z) = z.
Proof.
  unfold Int_part. rewrite <- (tech_up (IZR z) (z + 1)); [lia| |]; rewrite plus_IZR; lra.
Qed.
Lemma rpow_odd x k : 0 < x -> rpow (- x) (IZR (Z.of_nat (2 * k + 1))) = option_map Ropp (rpow x (IZR (Z.of_nat (2 * k + 1)))).
Proof.
  intros Hx. unfold rpow. destruct (Rlt_dec 0 x); [|contradiction]. destruct (Rlt_dec 0 (- x)); [lra|]. destruct (Req_EM_T (- x) 0); [lra|].
  rewrite Int_part_IZR. destruct (Req_EM_T _ _); [|congruence]. cbn [option_map]. f_equal. rewrite powerRZ_odd. f_equal.
  rewrite <- INR_IZR_INZ, Rpower_pow, pow_powerRZ by exact Hx. reflexivity.
Qed.
Lemma compression_mirror E K n k e s : 0 < K -> 1 / n = IZR (Z.of_nat (2 * k + 1)) -> 0 < s ->
  (root (ramberg_osgood E K n e) s <-> root (ramberg_osgood E K n (- e)) (- s)).
Proof.
  intros HK Hn Hs. unfold root, ramberg_osgood. rewrite Hn. replace (- s / K) with (- (s / K)) by (field; lra).
  rewrite rpow_odd by now apply Rdiv_lt_0_compat. destruct (rpow (s / K) (IZR (Z.of_nat (2 * k + 1)))) as [p|]; cbn [option_map]; [|split; discriminate].
  replace (- s / E + - p - - e) with (- (s / E + p - e)) by (unfold Rdiv; ring).
  split; intros [= H]; f_equal; lra.
Qed.

(** ** Strain life *)
Lemma Rpower_decr b x y : b < 0 -> 0 < x -> x < y -> Rpower y b < Rpower x b.
Proof. intros Hb Hx Hlt. unfold Rpower. apply exp_increasing. pose proof (ln_increasing x y Hx Hlt). nra. Qed.

Lemma sum_life_decr A B b c x y : 0 < A -> 0 < B -> b < 0 -> c < 0 -> 0 < x -> x < y ->
  A * Rpower y b + B * Rpower y c < A * Rpower x b + B * Rpower x c.
Proof.
  intros HA HB Hb Hc Hx Hlt. apply Rplus_lt_compat; apply Rmult_lt_compat_l; auto; now apply Rpower_decr.
Qed.
Lemma Rpower_solve z b : 0 < z -> b <> 0 -> Rpower (Rpower z (1 / b)) b = z.
Proof. intros Hz Hb. rewrite Rpower_mult. replace (1 / b * b) with 1 by (field; exact Hb). now apply Rpower_1. Qed.
Lemma sum_life_exists A B b c eps : 0 < A -> 0 < B -> b < 0 -> c < 0 -> 0 < eps ->
  exists x, 0 < x /\ A * Rpower x b + B * Rpower x c = eps.
Proof.
  intros HA HB Hb Hc He. set (g := fun y => A * exp (b * y) + B * exp (c * y)).
  assert (forall p x y, p < 0 -> x <= y -> exp (p * y) <= exp (p * x)) as Mono.
  { intros p x y Hp [Hlt| ->]; [left; apply exp_increasing; nra|lra]. }
  set (y1 := ln (eps / A) / b). set (u := ln (eps / 2 / A) / b). set (v := ln (eps / 2 / B) / c).
  assert (0 < eps / A) by now apply Rdiv_lt_0_compat.
  assert (0 < eps / 2 / A) by (apply Rdiv_lt_0_compat; lra). assert (0 < eps / 2 / B) by (apply Rdiv_lt_0_compat; lra).
  assert (eps < g y1) as G1.
  { unfold g. replace (b * y1) with (ln (eps / A)) by (unfold y1; field; lra). rewrite exp_ln by assumption.
    replace (A * (eps / A)) with eps by (field; lra). pose proof (exp_pos (c * y1)).
    assert (0 < B * exp (c * y1)) by now apply Rmult_lt_0_compat. lra. }
  set (y2 := Rmax u v).
  assert (g y2 <= eps) as G2.
  { unfold g. assert (A * exp (b * y2) <= eps / 2).
    { replace (eps / 2) with (A * exp (b * u)); [apply Rmult_le_compat_l; [lra|]; apply Mono; [lra|apply Rmax_l]|].
      replace (b * u) with (ln (eps / 2 / A)) by (unfold u; field; lra). rewrite exp_ln by assumption. field. lra. }
    assert (B * exp (c * y2) <= eps / 2).
    { replace (eps / 2) with (B * exp (c * v)); [apply Rmult_le_compat_l; [lra|]; apply Mono; [lra|apply Rmax_r]|].
      replace (c * v) with (ln (eps / 2 / B)) by (unfold v; field; lra). rewrite exp_ln by assumption. field. lra. }
    lra. }
  destruct (IVT_gen g y1 y2 eps) as (y & Hy & Ey).
  - intros y. apply continuity_pt_filterlim. apply (ex_derive_continuous g). unfold g. auto_derive. trivial.
  - rewrite Rmin_right, Rmax_left by lra. lra.
  - exists (exp y). split; [apply exp_pos|]. unfold Rpower. rewrite ln_exp. exact Ey.
Qed.

(** The coefficients and exponents of the two strain terms. *)
Lemma strain_lines meth E sigma_f epsilon_f mean smax b c :
  0 < E -> 0 < sigma_f -> 0 < epsilon_f -> mean < sigma_f -> 0 < smax -> b < 0 -> c < 0 -> 
  exists A B b' c', 0 < A /\ 0 < B /\ b' < 0 /\ c' < 0 /\
    (forall x, elastic_line meth E sigma_f mean smax b x = A * Rpower x b') /\
    (forall x, plastic_line meth sigma_f epsilon_f mean smax b c x = B * Rpower x c') /\
    (forall eps x, life_equation meth E sigma_f epsilon_f mean smax b c eps x = A * Rpower x b' + B * Rpower x c' - eps).
Proof.
  intros HE Hs Hf Hm Hx Hb Hc. assert (0 < sigma_f - mean) as Hd by lra.
  destruct meth as [[| |]|].
  - exists ((sigma_f - mean) / E), epsilon_f, b, c. split; [now apply Rdiv_lt_0_compat|]. repeat split; auto.
  - exists ((sigma_f - mean) / E), (epsilon_f * Rpower ((sigma_f - mean) / sigma_f) (c / b)), b, c.
    split; [now apply Rdiv_lt_0_compat|]. split; [apply Rmult_lt_0_compat; [assumption|apply Rpower_gt_0]|]. repeat split; auto.
  - exists (sigma_f ^ 2 / E / smax), (sigma_f * epsilon_f / smax), (2 * b), (b + c).
    split; [repeat apply Rdiv_lt_0_compat; try assumption; now apply pow_lt|].
    split; [apply Rdiv_lt_0_compat; [now apply Rmult_lt_0_compat|assumption]|]. repeat split; try lra.
    1-3: intros; cbn [elastic_line plastic_line life_equation]; unfold Rdiv; ring.
  - exists (sigma_f / E), epsilon_f, b, c. split; [now apply Rdiv_lt_0_compat|]. repeat split; auto.
Qed.

Lemma strain_life_unique meth E sigma_f epsilon_f mean smax b c eps :
  0 < E -> 0 < sigma_f -> 0 < epsilon_f -> mean < sigma_f -> 0 < smax -> b < 0 -> c < 0 -> 0 < eps ->
  exists x, 0 < x /\ life_equation meth E sigma_f epsilon_f mean smax b c eps x = 0 /\
    forall y, 0 < y -> life_equation meth E sigma_f epsilon_f mean smax b c eps y = 0 -> y = x.
Proof.
  intros HE Hs Hf Hm Hx Hb Hc He.
  destruct (strain_lines meth E sigma_f epsilon_f mean smax b c HE Hs Hf Hm Hx Hb Hc) as (A & B & b' & c' & HA & HB & Hb' & Hc' & _ & _ & L).
  destruct (sum_life_exists A B b' c' eps HA HB Hb' Hc' He) as (x & Hx0 & Ex). exists x. split; [exact Hx0|]. split; [rewrite L; lra|].
  intros y Hy Ey. rewrite L in Ey. destruct (Rtotal_order x y) as [H|[H|H]]; [|now symmetry|].
  - pose proof (sum_life_decr A B b' c' x y HA HB Hb' Hc' Hx0 H). lra.
  - pose proof (sum_life_decr A B b' c' y x HA HB Hb' Hc' Hy H). lra.
Qed.

Lemma strain_life_decr meth E sigma_f epsilon_f mean smax b c eps eps' x x' :
  0 < E -> 0 < sigma_f -> 0 < epsilon_f -> mean < sigma_f -> 0 < smax -> b < 0 -> c < 0 -> 0 < x -> 0 < x' ->
  life_equation meth E sigma_f epsilon_f mean smax b c eps x = 0 -> life_equation meth E sigma_f epsilon_f mean smax b c eps' x' = 0 ->
  eps < eps' -> x' < x.
Proof.
  intros HE Hs Hf Hm Hsm Hb Hc Hx Hx' E1 E2 Hlt.
  destruct (strain_lines meth E sigma_f epsilon_f mean smax b c HE Hs Hf Hm Hsm Hb Hc) as (A & B & b' & c' & HA & HB & Hb' & Hc' & _ & _ & L).
  rewrite L in E1, E2. destruct (Rtotal_order x x') as [H|[H|H]]; [|subst; lra|exact H].
  pose proof (sum_life_decr A B b' c' x x' HA HB Hb' Hc' Hx H). lra.
Qed.

Lemma life_equation_split meth E sigma_f epsilon_f mean smax b c eps x : 0 < smax -> 0 < E ->
  life_equation meth E sigma_f epsilon_f mean smax b c eps x =
  elastic_line meth E sigma_f mean smax b x + plastic_line meth sigma_f epsilon_f mean smax b c x - eps.
Proof. intros. destruct meth as [[| |]|]; cbn; unfold Rdiv; ring. Qed.

Lemma transition_core A B b c : 0 < A -> 0 < B -> b <> c -> A * Rpower (Rpower (B / A) (1 / (b - c))) b = B * Rpower (Rpower (B / A) (1 / (b - c))) c.
Proof.
  intros HA HB Hbc. set (x := Rpower (B / A) (1 / (b - c))).
  assert (Rpower x (b - c) = B / A) as E by (unfold x; apply Rpower_solve; [now apply Rdiv_lt_0_compat|lra]).
  replace (Rpower x b) with (Rpower x c * Rpower x (b - c)); [rewrite E; field; lra|].
  rewrite <- Rpower_plus. f_equal. ring.
Qed.

Lemma transition_life meth E sigma_f epsilon_f mean smax b c :
  0 < E -> 0 < sigma_f -> 0 < epsilon_f -> mean < sigma_f -> 0 < smax -> b <> c ->
  let x := cycles_2Nt meth E sigma_f epsilon_f mean b c in
  0 < x /\ elastic_line meth E sigma_f mean smax b x = plastic_line meth sigma_f epsilon_f mean smax b c x.
Proof.
  intros HE Hs Hf Hm Hsm Hbc x. split; [unfold x; destruct meth as [[| |]|]; apply Rpower_gt_0|].
  assert (0 < sigma_f - mean) as Hd by lra.
  unfold x. destruct meth as [[| |]|]; cbn [cycles_2Nt elastic_line plastic_line].
  - replace (epsilon_f * E / (sigma_f - mean)) with (epsilon_f / ((sigma_f - mean) / E)) by (field; lra).
    apply transition_core; auto. now apply Rdiv_lt_0_compat.
  - replace (epsilon_f * E * Rpower ((sigma_f - mean) / sigma_f) (c / b) / (sigma_f - mean))
      with (epsilon_f * Rpower ((sigma_f - mean) / sigma_f) (c / b) / ((sigma_f - mean) / E)) by (field; lra).
    apply transition_core; auto; [now apply Rdiv_lt_0_compat|apply Rmult_lt_0_compat; [assumption|apply Rpower_gt_0]].
  - replace (epsilon_f * E / sigma_f) with (epsilon_f / (sigma_f / E)) by (field; lra).
    set (y := Rpower (epsilon_f / (sigma_f / E)) (1 / (b - c))).
    assert (sigma_f / E * Rpower y b = epsilon_f * Rpower y c) as T by (apply transition_core; auto; now apply Rdiv_lt_0_compat).
    replace (2 * b) with (b + b) by ring. rewrite !Rpower_plus.
    replace (sigma_f ^ 2 / E * (Rpower y b * Rpower y b) / smax) with (sigma_f / smax * Rpower y b * (sigma_f / E * Rpower y b)) by (field; lra).
    rewrite T. field. lra.
  - replace (epsilon_f * E / sigma_f) with (epsilon_f / (sigma_f / E)) by (field; lra).
    apply transition_core; auto. now apply Rdiv_lt_0_compat.
Qed.

(** With no mean stress the Morrow corrections do nothing. *)
Lemma no_mean_stress meth E sigma_f epsilon_f smax b c eps x : 0 < sigma_f -> meth <> SWT ->
  life_equation (Some meth) E sigma_f epsilon_f 0 smax b c eps x = life_equation None E sigma_f epsilon_f 0 smax b c eps x.
Proof.
  intros Hs Hm. destruct meth; [| |congruence]; cbn [life_equation]; rewrite Rminus_0_r; [reflexivity|].
  replace (sigma_f / sigma_f) with 1 by (field; lra). replace (Rpower 1 (c / b)) with 1; [ring|].
  unfold Rpower. rewrite ln_1, Rmult_0_r, exp_0. reflexivity.
Qed.

(** Strain limits of the two diagrams. *)
Lemma limits_agree_default E K n smax :
  match sl_limits_of_stress E K n smax None with Some (_, emax, _, emin) => Some (emax, emin) | None => None end
  = strain_limits_of_stress E K n smax None.
Proof. unfold sl_limits_of_stress, strain_limits_of_stress. destruct (rpow (smax / K) (1 / n)); reflexivity. Qed.

Lemma limits_agree_tension E K n smax : 0 < K -> 0 < n ->
  match sl_limits_of_stress E K n smax (Some 0) with Some (_, emax, _, emin) => Some (emax, emin) | None => None end
  = strain_limits_of_stress E K n smax (Some 0).
Proof.
  intros HK Hn. unfold sl_limits_of_stress, strain_limits_of_stress. destruct (rpow (smax / K) (1 / n)); [|reflexivity].
  assert (0 < 1 / n) by (apply Rdiv_lt_0_compat; lra).
  destruct (rpow_nonneg (0 / K) (1 / n)) as (p & -> & _ & Z & _); [unfold Rdiv; rewrite Rmult_0_l; lra|assumption|].
  destruct (rpow_nonneg (- 0 / K) (1 / n)) as (q & -> & _ & Z' & _); [unfold Rdiv; rewrite Ropp_0, Rmult_0_l; lra|assumption|].
  rewrite Z by (unfold Rdiv; ring). rewrite Z' by (unfold Rdiv; ring). do 2 f_equal. unfold Rdiv. ring.
Qed.

(** For a compressive minimum stress the strain-life class raises a negative number to the
    power 1/n; the stress-strain class uses the mirrored curve. *)
Lemma limits_differ : exists E K n smax smin, 0 < E /\ 0 < K /\ 0 < n /\ 0 < smax /\ smin < 0 /\
  exists emin1 emin2 emax, strain_limits_of_stress E K n smax (Some smin) = Some (emax, emin1) /\
    sl_limits_of_stress E K n smax (Some smin) = Some (smax, emax, smin, emin2) /\ emin1 < 0 /\ emin2 = 0.
Proof.
  exists 1, 1, (1 / 2), 1, (-1). repeat (split; [lra|]). exists (-2), 0, 2.
  assert (1 / (1 / 2) = INR 2) as E2 by (cbn; field).
  unfold strain_limits_of_stress, sl_limits_of_stress. rewrite !E2.
  assert (rpow (1 / 1) (INR 2) = Some 1) as R1.
  { unfold rpow. destruct (Rlt_dec 0 (1 / 1)); [|lra]. f_equal. rewrite Rpower_pow by lra. field. }
  assert (rpow (- (-1) / 1) (INR 2) = Some 1) as R2 by (replace (- (-1) / 1) with (1 / 1) by field; exact R1).
  assert (rpow (-1 / 1) (INR 2) = Some 1) as R3.
  { unfold rpow. destruct (Rlt_dec 0 (-1 / 1)); [lra|]. destruct (Req_EM_T (-1 / 1) 0); [lra|].
    rewrite (INR_IZR_INZ 2), Int_part_IZR. destruct (Req_EM_T _ _); [|congruence]. f_equal. rewrite <- pow_powerRZ. field. }
  rewrite R1, R2, R3. replace (1 / 1 + 1) with 2 by field. replace (- (- (-1) / 1 + 1)) with (-2) by field. replace (-1 / 1 + 1) with 0 by field.
  repeat split; lra.
Qed.

(** ** Crack initiation *)
Section Init.
  Variables P A Sy E K n b c sigma_f epsilon_f Kt q : R.
  Hypotheses (HE : 0 < E) (HK : 0 < K) (Hn : 0 < n).

  Lemma massing_incr el dd x y : 0 <= dd -> 0 < x -> x < y -> ci_massing el E K n dd x < ci_massing el E K n dd y.
  Proof.
    intros Hdd Hx Hlt.
    assert (x / (2 * E) < y / (2 * E)) by (apply Rmult_lt_compat_r; [apply Rinv_0_lt_compat; lra|exact Hlt]).
    assert (dd / (2 * y) <= dd / (2 * x)) by (apply Rmult_le_compat_l; [exact Hdd|]; apply Rinv_le_contravar; lra).
    unfold ci_massing. destruct el; [lra|].
    assert (Rpower (x / (2 * K)) (1 / n) < Rpower (y / (2 * K)) (1 / n)); [|lra].
    assert (0 < / (2 * K)) by (apply Rinv_0_lt_compat; lra).
    apply Rlt_Rpower_l; [apply Rdiv_lt_0_compat; lra|]. split; [now apply Rmult_lt_0_compat|now apply Rmult_lt_compat_r].
  Qed.

  Lemma init_range meth s ds N2 : ci_run P A Sy E K n b c sigma_f epsilon_f Kt q meth s ds N2 -> ds = 2 * s.
  Proof.
    intros [Hs Hds _ R1 R2 _].
    set (el := if Rle_dec (Kt * ci_S_net P A) Sy then true else false).
    assert (el = true <-> Kt * ci_S_net P A <= Sy) as Hel by (unfold el; destruct (Rle_dec _ _); split; auto; discriminate).
    specialize (R1 el Hel). specialize (R2 el Hel). set (F := ci_Kf q Kt * ci_S_net P A) in *.
    assert (ci_massing el E K n ((F * 2) ^ 2 / E) (2 * s) = 0) as R3.
    { rewrite <- R1. unfold ci_massing, ci_neuber. destruct el; [field; lra|].
      replace (2 * s / (2 * K)) with (s / K) by (field; lra). field. lra. }
    assert (0 <= (F * 2) ^ 2 / E) as Hdd by (apply Rmult_le_pos; [apply pow2_ge_0|left; now apply Rinv_0_lt_compat]).
    destruct (Rtotal_order ds (2 * s)) as [H|[H|H]]; [|exact H|].
    - pose proof (massing_incr el _ _ _ Hdd Hds H). lra.
    - pose proof (massing_incr el _ (2 * s) ds Hdd ltac:(lra) H). lra.
  Qed.

  Lemma init_means meth s ds N2 : ci_run P A Sy E K n b c sigma_f epsilon_f Kt q meth s ds N2 ->
    let o := ci_limits ((ci_Kf q Kt * ci_S_net P A) ^ 2 / E) ((ci_Kf q Kt * ci_S_net P A * 2) ^ 2 / E) s ds in
    ci_smean o = 0 /\ ci_emean o = 0 /\ ci_smin o = - ci_smax o /\ ci_emin o = - ci_emax o.
  Proof.
    intros Hr. pose proof (init_range _ _ _ _ Hr) as ->. destruct Hr as [Hs _ _ _ _ _]. unfold ci_limits; cbv zeta; cbn [ci_smean ci_emean ci_smin ci_smax ci_emin ci_emax]. replace 0.5 with (/ 2) by lra. repeat split; field; lra.
  Qed.

  Lemma init_sigma_unique meth s ds N2 meth' s' ds' N2' :
    ci_run P A Sy E K n b c sigma_f epsilon_f Kt q meth s ds N2 -> ci_run P A Sy E K n b c sigma_f epsilon_f Kt q meth' s' ds' N2' -> ds = ds'.
  Proof.
    intros [_ Hds _ _ R _] [_ Hds' _ _ R' _].
    set (el := if Rle_dec (Kt * ci_S_net P A) Sy then true else false).
    assert (el = true <-> Kt * ci_S_net P A <= Sy) as Hel by (unfold el; destruct (Rle_dec _ _); split; auto; discriminate).
    specialize (R el Hel). specialize (R' el Hel). set (F := ci_Kf q Kt * ci_S_net P A) in *.
    assert (0 <= (F * 2) ^ 2 / E) as Hdd by (apply Rmult_le_pos; [apply pow2_ge_0|left; now apply Rinv_0_lt_compat]).
    destruct (Rtotal_order ds ds') as [H|[H|H]]; [|exact H|].
    - pose proof (massing_incr el _ _ _ Hdd Hds H). lra.
    - pose proof (massing_incr el _ _ _ Hdd Hds' H). lra.
  Qed.

  Lemma init_morrow_same s ds N2 s' ds' N2' : 0 < sigma_f -> 0 < epsilon_f -> b < 0 -> c < 0 ->
    ci_run P A Sy E K n b c sigma_f epsilon_f Kt q Morrow s ds N2 ->
    ci_run P A Sy E K n b c sigma_f epsilon_f Kt q ModifiedMorrow s' ds' N2' -> N2 = N2'.
  Proof.
    intros Hsf Hef Hb Hc R R'. pose proof (init_sigma_unique _ _ _ _ _ _ _ _ R R') as Ed. subst ds'.
    pose proof (init_range _ _ _ _ R) as E1. pose proof (init_range _ _ _ _ R') as E2. assert (s' = s) by lra. subst s'.
    pose proof (init_means _ _ _ _ R) as (M & _). cbv zeta in M.
    destruct R as [_ _ HN _ _ L], R' as [_ _ HN' _ _ L'].
    set (el := if Rle_dec (Kt * ci_S_net P A) Sy then true else false).
    assert (el = true <-> Kt * ci_S_net P A <= Sy) as Hel by (unfold el; destruct (Rle_dec _ _); split; auto; discriminate).
    specialize (L el Hel). specialize (L' el Hel). rewrite M in L, L'. unfold ci_life in L, L'.
    rewrite Rminus_0_r in L, L'. replace (sigma_f / sigma_f) with 1 in L' by (field; lra).
    replace (Rpower 1 (c / b)) with 1 in L' by (unfold Rpower; rewrite ln_1, Rmult_0_r, exp_0; reflexivity).
    rewrite Rmult_1_r in L'. assert (0 < sigma_f / E) as HA by now apply Rdiv_lt_0_compat.
    set (z := (ci_Kf q Kt * ci_S_net P A * 2) ^ 2 / E / ds * 0.5) in *.
    destruct (Rtotal_order N2 N2') as [H|[H|H]]; [|exact H|]; exfalso; destruct el.
    - pose proof (Rmult_lt_compat_l _ _ _ HA (Rpower_decr b N2 N2' Hb HN H)). lra.
    - pose proof (sum_life_decr _ _ b c N2 N2' HA Hef Hb Hc HN H). lra.
    - pose proof (Rmult_lt_compat_l _ _ _ HA (Rpower_decr b N2' N2 Hb HN' H)). lra.
    - pose proof (sum_life_decr _ _ b c N2' N2 HA Hef Hb Hc HN' H). lra.
  Qed.
End Init.
