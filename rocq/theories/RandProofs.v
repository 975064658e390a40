(** Proofs about random samples. *)
From Coquelicot Require Import Coquelicot.
From Coq Require Import List Arith Reals Lra Lia Bool ZArith Sorting.Sorted.
From Verif Require Import Base RealFacts Ext RList DistModel DistSpec DistProofs DistProofs2 CIProps DistProofs4 QQProofs PlotProofs2 RepairModel CombModel CStatModel
  CStatSpec CStatProofs RandModel RandSpec.
Import ListNotations.
Open Scope R_scope.

Lemma belowb_true x y : belowb x y = true <-> x < y.
Proof. unfold belowb. destruct (Rlt_dec x y); split; auto; try discriminate; lra. Qed.
Lemma belowb_false x y : belowb x y = false <-> y <= x.
Proof. unfold belowb. destruct (Rlt_dec x y); split; auto; try discriminate; lra. Qed.

Section Streams.
  Context {G : Type}.
  Implicit Types (next : G -> R * G) (g : G).
  Lemma number_S next g i : number next (snd (next g)) i = number next g (S i).
  Proof. reflexivity. Qed.
  Lemma after_add next n : forall m g, after next m (after next n g) = after next (n + m) g.
  Proof. induction n as [|n IH]; intros m g; [reflexivity|]. cbn [after plus]. apply IH. Qed.
  Lemma number_after next n g i : number next (after next n g) i = number next g (n + i).
  Proof. unfold number. now rewrite after_add. Qed.
  Lemma first_S next g n : first_numbers next g (S n) = fst (next g) :: first_numbers next (snd (next g)) n.
  Proof. unfold first_numbers. cbn [seq map]. f_equal. rewrite <- seq_shift, map_map. reflexivity. Qed.
  Lemma first_app next n : forall g m, first_numbers next g (n + m) = first_numbers next g n ++ first_numbers next (after next n g) m.
  Proof. induction n as [|n IH]; intros g m; [reflexivity|]. change (S n + m)%nat with (S (n + m)). rewrite (first_S next g (n + m)), (first_S next g n), IH. reflexivity. Qed.
  Lemma first_length next g n : length (first_numbers next g n) = n.
  Proof. unfold first_numbers. now rewrite map_length, seq_length. Qed.
  Lemma first_nth next g n i : (i < n)%nat -> nth i (first_numbers next g n) 0 = number next g i.
  Proof.
    intros H. unfold first_numbers. rewrite (nth_indep _ 0 (number next g 0)) by (now rewrite map_length, seq_length).
    rewrite map_nth, seq_nth by assumption. reflexivity.
  Qed.
  Lemma draws_eq next n : forall g, draws G next n g = (first_numbers next g n, after next n g).
  Proof.
    induction n as [|n IH]; intros g; [reflexivity|]. cbn [draws]. rewrite first_S. cbn [after]. destruct (next g) as [y g1] eqn:E. cbn [fst snd]. rewrite IH. reflexivity.
  Qed.
End Streams.

(** The standard member, its location and scale. *)
Lemma call_standard d : fst (fst (rvs_call d)) = standard d.
Proof. now destruct d. Qed.
Definition cloc (d : dist) : R := snd (fst (rvs_call d)).
Definition cscale (d : dist) : R := snd (rvs_call d).
Lemma call_eq d : rvs_call d = (standard d, cloc d, cscale d).
Proof. now destruct d. Qed.
Lemma cscale_pos d : valid d -> 0 < cscale d.
Proof. destruct d; unfold cscale; cbn [rvs_call snd]; simpl; intros V; try lra; try apply exp_pos. apply Rdiv_lt_0_compat; lra. Qed.
Lemma standard_valid d : valid d -> valid (standard d).
Proof. destruct d; simpl; intros; lra. Qed.
Lemma cdf_standard d y : valid d -> cdf d (y * cscale d + cloc d) = cdf (standard d) y.
Proof.
  intros V. pose proof (cscale_pos d V) as P. destruct d; unfold cscale, cloc in *; cbn [rvs_call fst snd] in *; cbn [cdf standard]; rewrite ?exp_0;
    try (f_equal; field; simpl in V; repeat split; lra).
  - do 4 f_equal. field. simpl in V. lra.
Qed.
Lemma inside_standard d y : valid d -> (inside d (y * cscale d + cloc d) <-> inside (standard d) y).
Proof.
  intros V. pose proof (cscale_pos d V) as P. revert P. destruct d; unfold inside, cscale, cloc; cbn [rvs_call fst snd standard supp_lo supp_hi Rbar_lt]; intros P;
    try (split; intros _; split; exact I); (split; intros [A B]; (split; [|try exact I; nra])); try nra.
Qed.
Lemma ppf_standard d u : valid d -> 0 < u < 1 -> ppf d u = ppf (standard d) u * cscale d + cloc d.
Proof.
  intros V U. pose proof (F_ppf _ (all_facts _ (standard_valid d V)) u U) as [A B]. apply ppf_of_cdf; [assumption|now apply inside_standard|]. now rewrite cdf_standard.
Qed.

(** Arguments. *)
Lemma check_count_ok c n : check_count c = Ok n <-> c = IsInt (Z.of_nat n) /\ (1 <= n)%nat.
Proof.
  destruct c as [z|]; cbn [check_count]; [|split; [discriminate|intros [K _]; discriminate]]. destruct (z <? 1)%Z eqn:B.
  - split; [discriminate|]. intros [K L]. injection K as ->. apply Z.ltb_lt in B. lia.
  - apply Z.ltb_ge in B. split; [intros K; injection K as <-; split; [f_equal|]; lia|]. intros [K L]. injection K as ->. now rewrite Nat2Z.id.
Qed.
Lemma check_count_err c e : check_count c = Err e -> e = ValueError.
Proof. destruct c as [z|]; cbn [check_count]; [destruct (z <? 1)%Z; congruence|congruence]. Qed.
Lemma reseed_ok {G} (seeded : Z -> G) seed g g0 : reseed G seeded seed g = Ok g0 <-> good_seed seed /\ g0 = start seeded seed g.
Proof.
  destruct seed as [s|]; cbn [reseed good_seed start]; [|split; [intros K; apply Ok_inj in K; now split|intros [_ ->]; reflexivity]].
  change (2 ^ 32)%Z with 4294967296%Z. destruct ((s <? 0)%Z || (4294967295 <? s)%Z) eqn:B.
  - split; [discriminate|]. intros [K _]. apply orb_true_iff in B. destruct B as [B|B]; apply Z.ltb_lt in B; lia.
  - apply orb_false_iff in B. destruct B as [B1 B2]. apply Z.ltb_ge in B1, B2. split; [intros K; apply Ok_inj in K; split; [lia|congruence]|intros [_ ->]; reflexivity].
Qed.
Lemma reseed_err {G} (seeded : Z -> G) seed g e : reseed G seeded seed g = Err e -> e = ValueError.
Proof. destruct seed as [s|]; cbn [reseed]; [|discriminate]. destruct ((s <? 0)%Z || (4294967295 <? s)%Z); congruence. Qed.

Section Base.
  Context {G : Type}.
  Variable seeded : Z -> G.
  Variable std_draw : dist -> G -> R * G.
  Notation samples := (random_samples G seeded std_draw).
  Notation src d := (std_draw (standard d)).

  Lemma rvs_eq d n g : rvs G std_draw (rvs_call d) n g = (map (fun y => y * cscale d + cloc d) (first_numbers (src d) g n), after (src d) n g).
  Proof. rewrite call_eq. unfold rvs. now rewrite draws_eq. Qed.

  Lemma samples_plain fuel d n seed g : ~ is_beta d -> (1 <= n)%nat -> good_seed seed ->
    samples fuel d (IsInt (Z.of_nat n)) seed g =
    Some (Ok (map (fun y => y * cscale d + cloc d) (first_numbers (src d) (start seeded seed g) n), after (src d) n (start seeded seed g))).
  Proof.
    intros NB Hn Hs. unfold random_samples. rewrite (proj2 (check_count_ok _ n) (conj eq_refl Hn)).
    rewrite (proj2 (reseed_ok seeded seed g _) (conj Hs eq_refl)). rewrite rvs_eq. destruct d; try reflexivity. destruct (NB I).
  Qed.

  Lemma samples_err fuel d c seed g e : samples fuel d c seed g = Some (Err e) <->
    e = ValueError /\ ((forall n, (1 <= n)%nat -> c <> IsInt (Z.of_nat n)) \/ ~ good_seed seed).
  Proof.
    unfold random_samples. destruct (check_count c) as [n|e1] eqn:C.
    - apply check_count_ok in C. destruct C as [-> Hn]. destruct (reseed G seeded seed g) as [g0|e2] eqn:S0.
      + apply reseed_ok in S0. destruct S0 as [S1 S2]. split.
        * destruct (rvs G std_draw (rvs_call d) n g0) as [vals g1]. destruct d; try discriminate. destruct (beta_loop _ _ _ _ _ _ _) as [r|]; discriminate.
        * intros [_ [K|K]]; [destruct (K n Hn eq_refl)|destruct (K S1)].
      + pose proof (reseed_err _ _ _ _ S0) as ->. split; [intros K; injection K as <-; split; [reflexivity|]; right|intros [-> _]; reflexivity].
        intros K. assert (reseed G seeded seed g = Ok (start seeded seed g)) by (now apply reseed_ok). congruence.
    - pose proof (check_count_err _ _ C) as ->. split; [intros K; injection K as <-; split; [reflexivity|]; left|intros [-> _]; reflexivity].
      intros n Hn ->. assert (check_count (IsInt (Z.of_nat n)) = Ok n) by (now apply check_count_ok). congruence.
  Qed.

  (** The loop of the Beta distribution. *)
  Section BetaLoop.
    Variables (a b : R) (n : nat) (g : G).
    Notation d := (DistModel.Beta a b).
    Notation below l := (filter (fun x => belowb x 1) l).
    Lemma beta_rvs k g0 : rvs G std_draw (rvs_call d) k g0 = (first_numbers (src d) g0 k, after (src d) k g0).
    Proof. rewrite rvs_eq. f_equal. unfold cscale, cloc. cbn [rvs_call fst snd]. rewrite <- (map_id (first_numbers _ _ _)) at 2. apply map_ext. intros y. ring. Qed.
    Lemma filter_len {A} (f : A -> bool) l : (length (filter f l) <= length l)%nat.
    Proof. induction l as [|x l IH]; cbn [filter length]; [lia|]. destruct (f x); cbn [length]; lia. Qed.
    Lemma below_idem l : below (below l) = below l.
    Proof. induction l as [|x l IH]; [reflexivity|]. cbn [filter]. destruct (belowb x 1) eqn:B; [|assumption]. cbn [filter]. rewrite B. now f_equal. Qed.

    Definition seen (m : nat) (vals : list R) := below vals = below (first_numbers (src d) g m) /\ (length (below vals) <= n)%nat.
    Lemma seen_step m vals : seen m vals -> (length (below vals) < n)%nat ->
      seen (m + (n - length (below vals))) (below vals ++ first_numbers (src d) (after (src d) m g) (n - length (below vals))).
    Proof.
      intros [A B] L. split.
      - rewrite filter_app, below_idem, first_app, filter_app, A. reflexivity.
      - rewrite filter_app, below_idem, app_length. pose proof (filter_len (fun x => belowb x 1) (first_numbers (src d) (after (src d) m g) (n - length (below vals)))) as K.
        rewrite first_length in K. lia.
    Qed.
    Lemma beta_sound fuel : forall m vals l g', seen m vals -> beta_loop G std_draw fuel (rvs_call d) n vals (after (src d) m g) = Some (l, g') ->
      exists k, l = below (first_numbers (src d) g k) /\ length l = n /\ g' = after (src d) k g.
    Proof.
      induction fuel as [|fuel IH]; intros m vals l g' Sn H; [discriminate|]. cbn [beta_loop] in H. destruct (length (below vals) <? n)%nat eqn:B.
      - apply Nat.ltb_lt in B. rewrite beta_rvs in H. rewrite after_add in H. now apply (IH _ _ _ _ (seen_step m vals Sn B)).
      - apply Nat.ltb_ge in B. injection H as <- <-. exists m. destruct Sn as [A L]. split; [exact A|]. split; [lia|reflexivity].
    Qed.
    Lemma below_mono m k : (m <= k)%nat -> (length (below (first_numbers (src d) g m)) <= length (below (first_numbers (src d) g k)))%nat.
    Proof. intros L. replace k with (m + (k - m))%nat by lia. rewrite first_app, filter_app, app_length. lia. Qed.
    Lemma beta_ends K : (n <= length (below (first_numbers (src d) g K)))%nat -> forall fuel m vals, seen m vals -> (K <= m + fuel)%nat ->
      exists r, beta_loop G std_draw (S fuel) (rvs_call d) n vals (after (src d) m g) = Some r.
    Proof.
      intros HK. induction fuel as [|fuel IH]; intros m vals Sn L.
      - cbn [beta_loop]. destruct (length (below vals) <? n)%nat eqn:B; [|eauto]. apply Nat.ltb_lt in B. destruct Sn as [A _]. pose proof (below_mono K m ltac:(lia)). rewrite A in B. lia.
      - remember (S fuel) as q eqn:Eq. cbn [beta_loop]. destruct (length (below vals) <? n)%nat eqn:B; [|eauto]. apply Nat.ltb_lt in B. rewrite beta_rvs, after_add. subst q.
        apply IH; [now apply seen_step|lia].
    Qed.
    Lemma beta_stuck : (forall m, (length (below (first_numbers (src d) g m)) < n)%nat) -> forall fuel m vals, seen m vals ->
      beta_loop G std_draw fuel (rvs_call d) n vals (after (src d) m g) = None.
    Proof.
      intros H. induction fuel as [|fuel IH]; intros m vals Sn; [reflexivity|]. cbn [beta_loop]. pose proof Sn as [A _]. assert (length (below vals) < n)%nat as B by (rewrite A; apply H).
      rewrite (proj2 (Nat.ltb_lt _ _) B), beta_rvs, after_add. apply IH. now apply seen_step.
    Qed.
    Lemma seen_first : seen n (first_numbers (src d) g n).
    Proof. split; [reflexivity|]. pose proof (filter_len (fun x => belowb x 1) (first_numbers (src d) g n)) as K. rewrite first_length in K. exact K. Qed.
  End BetaLoop.

  Lemma samples_beta fuel a b n seed g : (1 <= n)%nat -> good_seed seed ->
    samples fuel (DistModel.Beta a b) (IsInt (Z.of_nat n)) seed g =
    match beta_loop G std_draw fuel (rvs_call (DistModel.Beta a b)) n (first_numbers (std_draw (DistModel.Beta a b)) (start seeded seed g) n) (after (std_draw (DistModel.Beta a b)) n (start seeded seed g)) with
    | Some r => Some (Ok r) | None => None end.
  Proof.
    intros Hn Hs. unfold random_samples. rewrite (proj2 (check_count_ok _ n) (conj eq_refl Hn)).
    rewrite (proj2 (reseed_ok seeded seed g _) (conj Hs eq_refl)). rewrite beta_rvs. reflexivity.
  Qed.
End Base.

(** Choosing from a table. *)
Section Choice.
  Variable f : R -> R.
  Notation upto t := (fun y => if Rle_dec y t then true else false).
  Lemma filter_none {A} (p : A -> bool) l : (forall x, In x l -> p x = false) -> filter p l = [].
  Proof. induction l as [|x l IH]; intros H; [reflexivity|]. cbn [filter]. rewrite (H x) by now left. apply IH. intros; apply H; now right. Qed.
  Lemma rsum_nonneg l : (forall x, In x l -> 0 <= f x) -> 0 <= rsum (map f l).
  Proof. induction l as [|x l IH]; intros H; unfold rsum in *; cbn [map fold_right]; [lra|]. pose proof (H x (or_introl eq_refl)). specialize (IH (fun y Hy => H y (or_intror Hy))). lra. Qed.
  Lemma cumsum_ge l : forall acc c, (forall x, In x l -> 0 <= f x) -> In c (cumsum acc (map f l)) -> acc <= c.
  Proof.
    induction l as [|x l IH]; intros acc c H; cbn [map cumsum]; [intros []|]. pose proof (H x (or_introl eq_refl)). intros [<-|K]; [lra|].
    apply IH in K; [lra|]. intros y Hy. apply H. now right.
  Qed.
  Lemma pick u l : forall acc, StronglySorted Rlt l -> (forall x, In x l -> 0 <= f x) -> acc <= u -> u < acc + rsum (map f l) ->
    exists x, nth_error l (length (filter (fun c => negb (belowb u c)) (cumsum acc (map f l)))) = Some x /\ In x l /\
      forall t, x <= t <-> u < acc + rsum (map f (filter (upto t) l)).
  Proof.
    induction l as [|a l IH]; intros acc HS H L U; [unfold rsum in U; cbn in U; lra|]. inversion HS as [|? ? HS1 HF]; subst. rewrite Forall_forall in HF.
    pose proof (H a (or_introl eq_refl)) as Ha. assert (forall x, In x l -> 0 <= f x) as H1 by (intros; apply H; now right).
    assert (forall t, t < a -> filter (upto t) (a :: l) = []) as FN.
    { intros t Ht. apply filter_none. intros x [<-|Hx]; [destruct (Rle_dec a t); [lra|reflexivity]|]. specialize (HF x Hx). destruct (Rle_dec x t); [lra|reflexivity]. }
    cbn [map cumsum filter]. destruct (belowb u (acc + f a)) eqn:B; cbn [negb].
    - apply belowb_true in B. rewrite filter_none.
      2:{ intros c Hc. apply cumsum_ge in Hc; [|assumption]. rewrite (proj2 (belowb_true _ _)); [reflexivity|lra]. }
      exists a. split; [reflexivity|]. split; [now left|]. intros t. split.
      + intros Ht. destruct (Rle_dec a t) as [_|C]; [|lra]. unfold rsum. cbn [map fold_right]. fold (rsum (map f (filter (upto t) l))).
        assert (0 <= rsum (map f (filter (upto t) l))); [|lra]. apply rsum_nonneg. intros x Hx. apply filter_In in Hx. now apply H1.
      + intros K. destruct (Rle_dec a t) as [C|C]; [assumption|]. assert (t < a) as C1 by lra. specialize (FN t C1). cbn [filter] in FN. destruct (Rle_dec a t); [lra|]. rewrite FN in K. unfold rsum in K. cbn in K. lra.
    - apply belowb_false in B. cbn [length nth_error]. unfold rsum in U; cbn [map fold_right] in U. fold (rsum (map f l)) in U.
      destruct (IH (acc + f a) HS1 H1 B ltac:(lra)) as (x & E & Hx & P). exists x. split; [exact E|]. split; [now right|]. intros t. rewrite P. pose proof (HF x Hx) as Lx.
      destruct (Rle_dec a t) as [C|C].
      + unfold rsum. cbn [map fold_right]. split; intros K; lra.
      + assert (t < a) as C1 by lra. specialize (FN t C1). cbn [filter] in FN. destruct (Rle_dec a t); [lra|]. rewrite FN. unfold rsum. cbn [map fold_right]. split; intros K; lra.
  Qed.
  Lemma last_any (q : list R) : forall e c v w, last (e :: c :: q) v = last (c :: q) w.
  Proof. induction q as [|z q IHq]; intros e c v w; [reflexivity|]. exact (IHq c z v w). Qed.
  Lemma cumsum_last l : forall acc, last (cumsum acc (map f l)) acc = acc + rsum (map f l).
  Proof.
    induction l as [|x l IH]; intros acc; [cbn; unfold rsum; cbn; lra|]. unfold rsum. cbn [map cumsum fold_right]. fold (rsum (map f l)). replace (acc + (f x + rsum (map f l))) with (acc + f x + rsum (map f l)) by ring. rewrite <- IH.
    destruct l as [|y l]; [reflexivity|]. cbn [map cumsum]. apply last_any.
  Qed.
End Choice.
Lemma rsum_scale c l : rsum (map (fun v => v / c) l) = rsum l / c.
Proof. induction l as [|x l IH]; unfold rsum in *; cbn [map fold_right]; [unfold Rdiv; ring|]. rewrite IH. unfold Rdiv. ring. Qed.
Lemma existsb_false {A} (p : A -> bool) l : (forall x, In x l -> p x = false) -> existsb p l = false.
Proof. induction l as [|x l IH]; intros H; [reflexivity|]. cbn [existsb]. rewrite (H x) by now left. apply IH. intros; apply H; now right. Qed.
Lemma mapM_ok {A B} (h : A -> result B) (P : A -> B -> Prop) l : (forall x, In x l -> exists y, h x = Ok y /\ P x y) -> exists r, mapM h l = Ok r /\ Forall2 P l r.
Proof.
  induction l as [|x l IH]; intros H; [exists []; split; [reflexivity|constructor]|]. destruct (H x (or_introl eq_refl)) as (y & E & Py). destruct (IH (fun z Hz => H z (or_intror Hz))) as (r & Er & Fr).
  exists (y :: r). cbn [mapM]. rewrite E. cbn [bind]. rewrite Er. split; [reflexivity|now constructor].
Qed.
Lemma all_finite_fin l : all_finite (map Fin l) = Some l.
Proof. induction l as [|x l IH]; [reflexivity|]. cbn [map all_finite]. now rewrite IH. Qed.

Lemma table_choice {G} (seeded : Z -> G) (uniform : G -> R * G) f X n seed g : StronglySorted Rlt X -> X <> [] -> (forall x, In x X -> 0 <= f x) -> 0 < rsum (map f X) ->
  (forall g, 0 <= fst (uniform g) < 1) -> (1 <= n)%nat -> good_seed seed ->
  let g0 := start seeded seed g in
  exists xs, table_samples G seeded uniform X (map Fin (map f X)) (IsInt (Z.of_nat n)) seed g = Ok (xs, after uniform n g0) /\
    Forall2 (fun u x => In x X /\ forall t, x <= t <-> u < rsum (map f (filter (fun y => if Rle_dec y t then true else false) X)) / rsum (map f X)) (first_numbers uniform g0 n) xs.
Proof.
  intros HS NE HF HT HU Hn Hs g0. unfold table_samples. rewrite (proj2 (check_count_ok _ n) (conj eq_refl Hn)). cbn [bind].
  rewrite (proj2 (reseed_ok seeded seed g g0) (conj Hs eq_refl)). cbn [bind]. unfold probabilities. rewrite all_finite_fin. destruct (Req_EM_T (rsum (map f X)) 0) as [C|_]; [lra|]. cbn [bind].
  set (T := rsum (map f X)) in *. unfold choice. rewrite draws_eq, map_map. set (h := fun x => f x / T).
  assert (forall x, In x X -> 0 <= h x) as Hh by (intros x Hx; unfold h; apply Rdiv_le_0_compat; [now apply HF|assumption]).
  assert (forall Y, rsum (map h Y) = rsum (map f Y) / T) as RS by (intros Y; unfold h; rewrite <- (map_map f (fun v => v / T)); apply rsum_scale).
  rewrite existsb_false.
  2:{ intros v Hv. apply in_map_iff in Hv. destruct Hv as (x & <- & Hx). apply belowb_false. now apply Hh. }
  cbv zeta. assert (last (cumsum 0 (map h X)) 0 = 1) as EL.
  { rewrite cumsum_last, RS. fold T. unfold Rdiv. rewrite Rinv_r by lra. ring. }
  rewrite EL. rewrite (map_ext (fun v => v / 1) (fun v => v)) by (intros; field). rewrite map_id.
  destruct (mapM_ok (choice_one X (cumsum 0 (map h X))) (fun u x => In x X /\ forall t, x <= t <-> u < rsum (map f (filter (fun y => if Rle_dec y t then true else false) X)) / T) (first_numbers uniform g0 n)) as (xs & E & F2).
  - intros u Hu. assert (0 <= u < 1) as Bu by (apply in_map_iff in Hu; destruct Hu as (i & <- & _); apply HU).
    destruct (pick h u X 0 HS Hh ltac:(lra)) as (x & Ex & Ix & P).
    { rewrite RS. fold T. unfold Rdiv. rewrite Rinv_r by lra. lra. }
    exists x. unfold choice_one. rewrite Ex. split; [reflexivity|]. split; [assumption|]. intros t. rewrite P, RS, Rplus_0_l. reflexivity.
  - exists xs. rewrite E. cbn [bind]. split; [reflexivity|exact F2].
Qed.
Lemma table_empty {G} (seeded : Z -> G) (uniform : G -> R * G) X pdf n seed g : (1 <= n)%nat -> good_seed seed ->
  (all_finite pdf = None \/ exists p, all_finite pdf = Some p /\ rsum p = 0) ->
  table_samples G seeded uniform X pdf (IsInt (Z.of_nat n)) seed g = Err ValueError.
Proof.
  intros Hn Hs H. unfold table_samples. rewrite (proj2 (check_count_ok _ n) (conj eq_refl Hn)). cbn [bind].
  rewrite (proj2 (reseed_ok seeded seed g _) (conj Hs eq_refl)). cbn [bind]. unfold probabilities. destruct H as [->|(p & -> & E)]; [reflexivity|].
  destruct (Req_EM_T (rsum p) 0); [reflexivity|contradiction].
Qed.

(** Sums over the points of the table. *)
Lemma filter_seq k n : (k < n)%nat -> filter (fun i => (i <=? k)%nat) (seq 0 n) = seq 0 (S k).
Proof.
  intros H. replace n with (S k + (n - S k))%nat by lia. rewrite seq_app, filter_app. rewrite (filter_none _ (seq (0 + S k) _)).
  2:{ intros i Hi. apply in_seq in Hi. apply Nat.leb_gt. lia. }
  rewrite app_nil_r. assert (forall l, (forall i, In i l -> (i <= k)%nat) -> filter (fun i => (i <=? k)%nat) l = l) as K.
  { induction l as [|i l IH]; intros HI; [reflexivity|]. cbn [filter]. rewrite (proj2 (Nat.leb_le _ _)) by (apply HI; now left). f_equal. apply IH. intros; apply HI; now right. }
  apply K. intros i Hi. apply in_seq in Hi. lia.
Qed.
Lemma filter_points lo h n k : 0 < h -> (k < n)%nat ->
  filter (fun y => if Rle_dec y (lo + INR k * h) then true else false) (map (fun i => lo + INR i * h) (seq 0 n)) = map (fun i => lo + INR i * h) (seq 0 (S k)).
Proof.
  intros Hh Hk. rewrite <- (filter_seq k n Hk). generalize (seq 0 n). intros l. induction l as [|i l IH]; [reflexivity|]. cbn [map filter].
  destruct (Rle_dec (lo + INR i * h) (lo + INR k * h)) as [C|C].
  - assert ((i <=? k)%nat = true) as ->. { apply Nat.leb_le, INR_le. nra. } cbn [map]. now f_equal.
  - assert ((i <=? k)%nat = false) as ->. { apply Nat.leb_gt. destruct (Nat.le_gt_cases i k) as [L|L]; [|assumption]. apply le_INR in L. nra. } exact IH.
Qed.
Lemma rsum_app l m : rsum (l ++ m) = rsum l + rsum m.
Proof. induction l as [|x l IH]; unfold rsum in *; cbn [app fold_right]; [lra|]. rewrite IH. ring. Qed.
Lemma right_sum (f : R -> R) lo h L : 0 < h -> forall k (J : R), (forall x y, lo <= x <= lo + INR k * h -> lo <= y <= lo + INR k * h -> Rabs (f x - f y) <= L * Rabs (x - y)) ->
  is_RInt f lo (lo + INR k * h) J -> Rabs (h * rsum (map (fun i => f (lo + INR i * h)) (seq 0 (S k))) - J - h * f lo) <= INR k * (L * h * h).
Proof.
  intros Hh. induction k as [|k IH]; intros J HL HJ.
  - cbn [INR seq map] in *. replace (lo + 0 * h) with lo in * by ring. assert (J = 0) as -> by (pose proof (is_RInt_unique f lo lo J HJ) as K; rewrite RInt_point in K; symmetry; exact K). unfold rsum; cbn [fold_right].
    replace (h * (f lo + 0) - 0 - h * f lo) with 0 by ring. rewrite Rabs_R0. lra.
  - pose proof (pos_INR k) as Pk. rewrite (S_INR k) in *.
    destruct (split_integral f lo (lo + INR k * h) (lo + (INR k + 1) * h) J ltac:(split; nra) HJ) as (J1 & J2 & H1 & H2 & ->).
    assert (Rabs (h * rsum (map (fun i => f (lo + INR i * h)) (seq 0 (S k))) - J1 - h * f lo) <= INR k * (L * h * h)) as K by (apply IH; [intros x y Hx Hy; apply HL; nra|assumption]).
    assert (0 <= L) as L0. { pose proof (HL lo (lo + h) ltac:(nra) ltac:(nra)) as Q. pose proof (Rabs_pos (f lo - f (lo + h))). rewrite (Rabs_left (lo - (lo + h))) in Q by lra. nra. }
    set (e := lo + (INR k + 1) * h) in *.
    pose proof (is_RInt_bounds f (lo + INR k * h) e J2 (f e - L * h) (f e + L * h) ltac:(unfold e; nra) H2) as B. assert (e - (lo + INR k * h) = h) as Ee by (unfold e; ring). rewrite Ee in B.
    assert (h * (f e - L * h) <= J2 <= h * (f e + L * h)) as B2.
    { apply B. intros x Hx. assert (lo <= x <= e) by (split; nra). pose proof (HL x e ltac:(assumption) ltac:(unfold e; nra)) as Q. apply Rabs_le_between in Q. assert (Rabs (x - e) <= h) by (rewrite Rabs_left1; lra). assert (L * Rabs (x - e) <= L * h) by nra. lra. }
    replace (S (S k)) with (S k + 1)%nat by lia. rewrite seq_app, map_app, rsum_app. cbn [seq map]. replace (INR (0 + S k)) with (INR k + 1) by (rewrite <- S_INR; reflexivity). fold e.
    assert (rsum [f e] = f e) as -> by (unfold rsum; cbn [fold_right]; ring).
    set (s := rsum _) in *. apply Rabs_le_between in K. apply Rabs_le_between.
    replace ((INR k + 1) * (L * h * h)) with (INR k * (L * h * h) + L * h * h) by ring. replace (h * (s + f e)) with (h * s + h * f e) by ring.
    replace (h * (f e - L * h)) with (h * f e - L * h * h) in B2 by ring. replace (h * (f e + L * h)) with (h * f e + L * h * h) in B2 by ring. lra.
Qed.
