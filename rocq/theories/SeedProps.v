(** C167: the random data of make_right_censored_data and make_ALT_data and the seeds. *)
From Coquelicot Require Import Coquelicot.
From Coq Require Import String.
From Coq Require Import List Arith Reals Lra Lia Bool NArith ZArith Permutation.
From Verif Require Import Base RealFacts Ext RList CIProofs ConvertModel RepairModel TestingModel DistModel CombModel SelModel CIModel TestingProofs OtherModel OtherSpec OtherProofs3 OtherProps RandModel RandSpec RandProofs SeedModel SeedSpec SeedProofs.
Import ListNotations.
Open Scope R_scope.

Lemma zip_nth {A B C} (f : A -> B -> C) da db dc : forall l m i, length m = length l -> (i < length l)%nat -> nth i (zip f l m) dc = f (nth i l da) (nth i m db).
Proof. induction l as [|a l IH]; intros [|b m] i L Hi; simpl in *; try lia. destruct i as [|i]; [reflexivity|]. apply IH; lia. Qed.

(** ** make_right_censored_data. With a seed the result, the caller's data after the call and the
    state of the generator after the call do not depend on what was drawn before, and are those
    of np.random.seed(seed) followed by a call without a seed. *)
Theorem C167_right_censored : forall G (seeded : Z -> G) uniform order data fraction s g1 g2, good_seed (Some s) ->
  censor G seeded uniform order data None fraction (Some s) g1 = censor G seeded uniform order data None fraction (Some s) g2 /\
  censor G seeded uniform order data None fraction (Some s) g1 = censor G seeded uniform order data None fraction None (seeded s).
Proof.
  intros G seeded uniform order data fraction s g1 g2 Hs. split; [now apply cens_seed|]. unfold censor. rewrite (proj2 (reseed_ok seeded (Some s) g1 _) (conj Hs eq_refl)). reflexivity.
Qed.
Print Assumptions C167_right_censored.
(** With a threshold nothing is random: the seed is not used and the generator not touched. *)
Theorem C167_threshold : forall G (seeded : Z -> G) uniform order data t fraction s1 s2 g1 g2,
  fst (censor G seeded uniform order data (Some t) fraction s1 g1) = fst (censor G seeded uniform order data (Some t) fraction s2 g2) /\
  snd (censor G seeded uniform order data (Some t) fraction s1 g1) = g1.
Proof. intros. destruct fraction; split; reflexivity. Qed.
Print Assumptions C167_threshold.
(** A seed outside 0 .. 2^32 - 1 raises ValueError, and then nothing is shuffled or drawn. *)
Theorem C167_bad_seed : forall G (seeded : Z -> G) uniform order data fraction s g, ~ good_seed (Some s) ->
  censor G seeded uniform order data None fraction (Some s) g = (Err ValueError, data, g).
Proof.
  intros G seeded uniform order data fraction s g Hs. unfold censor. destruct (reseed G seeded (Some s) g) as [g0|e] eqn:E.
  - apply reseed_ok in E as [E _]. contradiction.
  - apply reseed_err in E. now subst.
Qed.
Print Assumptions C167_bad_seed.
(** Where its numbers come from: the data is put into the order drawn first, and the censoring
    times are the numbers drawn next. *)
Theorem C167_numbers : forall G (seeded : Z -> G) uniform order data fraction seed g failures rc after_call g',
  reorders order -> good_seed seed ->
  censor G seeded uniform order data None (Some fraction) seed g = (Ok (failures, rc), after_call, g') ->
  let g0 := start seeded seed g in
  let n := length (contents data) in
  let shuffled := reordered (fst (order n g0)) (contents data) in
  0 <= fraction < 1 /\ exists k, INR k <= INR n * fraction < INR k + 1 /\
    length rc = k /\ failures = skipn k shuffled /\
    (forall i, (i < k)%nat -> nth i rc 0 = nth i shuffled 0 * number uniform (snd (order n g0)) i) /\
    Permutation (contents data) shuffled /\ g' = after uniform k (snd (order n g0)).
Proof.
  intros G seeded uniform order data fraction seed g failures rc ac g' Ho Hs H g0 n shuffled. unfold censor in H. rewrite (proj2 (reseed_ok seeded seed g _) (conj Hs eq_refl)) in H. unfold shuffle in H. fold n g0 in H.
  pose proof (Ho n g0) as P. unfold shuffled in *. clear shuffled. destruct (order n g0) as [pos g1]. cbn [fst snd] in *. fold (reordered pos (contents data)) in H. set (sh := reordered pos (contents data)) in *.
  assert (length sh = n) as Ls by (unfold sh, reordered; rewrite map_length; apply Permutation_length in P; rewrite seq_length in P; congruence).
  destruct (Rltb' fraction 0 || Rleb 1 fraction) eqn:Eb; [discriminate|]. apply orb_false_iff in Eb as [B1 B2]. assert (0 <= fraction < 1) as Hf. { unfold Rltb', Rleb in B1, B2. destruct (Rlt_dec fraction 0); [discriminate|]. destruct (Rle_dec 1 fraction); [discriminate|lra]. }
  split; [exact Hf|]. rewrite Ls, draws_eq in H. set (k := Z.to_nat (rfloor (INR n * fraction))) in *.
  destruct (floor_count n fraction Hf) as [Lk Hk]. fold k in Lk, Hk.
  exists k. split; [exact Hk|]. assert (failures = skipn k sh /\ rc = zip Rmult (firstn k sh) (first_numbers uniform g1 k) /\ g' = after uniform k g1) as (-> & -> & ->) by (repeat split; congruence).
  assert (length (firstn k sh) = k) as L1 by (rewrite firstn_length; lia). pose proof (first_length uniform g1 k) as L2.
  split; [rewrite zip_length by congruence; exact L1|]. split; [reflexivity|]. split; [|split; [|reflexivity]].
  - intros i Hi. rewrite (zip_nth Rmult 0 0 0) by lia. rewrite first_nth by assumption. f_equal. rewrite <- (firstn_skipn k sh) at 2. now rewrite app_nth1 by lia.
  - unfold sh, reordered. transitivity (map (fun i => nth i (contents data) 0) (seq 0 n)); [|now apply Permutation_map].
    assert (map (fun i => nth i (contents data) 0) (seq 0 n) = contents data) as ->; [|reflexivity]. unfold n. clear. induction (contents data) as [|x l IH]; [reflexivity|]. cbn [length seq map nth]. f_equal. rewrite <- seq_shift, map_map. exact IH.
Qed.
Print Assumptions C167_numbers.
Example C167_numbers_ex : censor nat (fun _ => 0%nat) (fun g => (1 / 4, S g)) (fun n g => (rev (seq 0 n), S g)) (NdArray [4; 8]) None (Some (1 / 2)) (Some 3%Z) 9%nat =
  (Ok ([4], [8 * (1 / 4)]), NdArray [8; 4], 2%nat).
Proof.
  unfold censor. cbn [reseed Z.ltb Z.compare Pos.compare Pos.compare_cont orb shuffle contents length seq rev app map nth]. unfold Rltb', Rleb. destruct (Rlt_dec (1 / 2) 0); [lra|]. destruct (Rle_dec 1 (1 / 2)); [lra|]. cbn [orb].
  assert (rfloor (INR 2 * (1 / 2)) = 1%Z) as ->. { apply Z.le_antisymm; [|apply rfloor_spec; cbn; lra]. apply Z.lt_succ_r, lt_IZR. assert (IZR (rfloor (INR 2 * (1 / 2))) <= INR 2 * (1 / 2)) by (apply rfloor_spec; lia). cbn in *. lra. }
  reflexivity.
Qed.

(** ** make_ALT_data. Whatever was drawn before, or seeded by the user, the result and the state
    after the call are the same: they depend on the seed alone, and without a seed on the state
    that the operating system provides. *)
Definition same_outcome {A S} (x y : result A * S) : Prop := fst x = fst y /\ forall v, fst x = Ok v -> snd x = snd y.
Theorem C167_history : forall G (seeded : Z -> G) e1 e2 uniform std_draw order randint name m stress_1 stress_2 p beta sigma use n fraction seed g1 g2,
  seed <> None \/ e1 = e2 ->
  same_outcome (seed_ALT_data G seeded e1 uniform std_draw order randint name m stress_1 stress_2 p beta sigma use n fraction seed g1)
               (seed_ALT_data G seeded e2 uniform std_draw order randint name m stress_1 stress_2 p beta sigma use n fraction seed g2).
Proof.
  intros G seeded e1 e2 uniform std_draw order randint name m stress_1 stress_2 p beta sigma use n fraction seed g1 g2 H. unfold seed_ALT_data.
  assert (np_seed G seeded e2 seed g2 = np_seed G seeded e1 seed g1) as -> by (destruct seed; [reflexivity|]; destruct H as [H| ->]; [congruence|reflexivity]).
  match goal with |- same_outcome (match ?c with _ => _ end) _ => destruct c as [[[s2 life] g0]|e] end; [|split; [reflexivity|discriminate]]. split; reflexivity.
Qed.
Print Assumptions C167_history.

(** So np.random.seed before the call does not make it reproducible, although it does for
    random_samples and make_right_censored_data (C134, C167_right_censored). *)
Theorem C167_unseeded_refuted :
  ~ (forall G (seeded : Z -> G) e1 e2 uniform std_draw order randint name m stress_1 stress_2 p beta sigma use n fraction s,
     (forall g, (0 <= fst (randint g) < 1000000)%Z) -> good_seed (Some s) ->
     fst (seed_ALT_data G seeded e1 uniform std_draw order randint name m stress_1 stress_2 p beta sigma use n fraction None (seeded s)) =
     fst (seed_ALT_data G seeded e2 uniform std_draw order randint name m stress_1 stress_2 p beta sigma use n fraction None (seeded s))).
Proof.
  intros H. specialize (H R (fun z => IZR z + 1) 1 2 (fun g => (1 / 4, g)) (fun _ g => (g, g)) (fun n g => (seq 0 n, g)) (fun g => (if Rle_dec g 1 then 0%Z else 1%Z, g))
    "Weibull"%string LS_Power [1] None {| q_a := Some 100; q_b := None; q_c := None; q_n := Some 1; q_m := None |} (Some 2) None None (IsInt 1) 0 7%Z).
  assert (fst (seed_ALT_data R (fun z => IZR z + 1) 1 (fun g => (1 / 4, g)) (fun _ g => (g, g)) (fun n g => (seq 0 n, g)) (fun g => (if Rle_dec g 1 then 0%Z else 1%Z, g))
    "Weibull"%string LS_Power [1] None {| q_a := Some 100; q_b := None; q_c := None; q_n := Some 1; q_m := None |} (Some 2) None None (IsInt 1) 0 None 8) =
    fst (seed_ALT_data R (fun z => IZR z + 1) 2 (fun g => (1 / 4, g)) (fun _ g => (g, g)) (fun n g => (seq 0 n, g)) (fun g => (if Rle_dec g 1 then 0%Z else 1%Z, g))
    "Weibull"%string LS_Power [1] None {| q_a := Some 100; q_b := None; q_c := None; q_n := Some 1; q_m := None |} (Some 2) None None (IsInt 1) 0 None 8)) as E.
  { replace 8 with (IZR 7 + 1) by lra. apply H; [intros g; cbn [fst]; destruct (Rle_dec g 1); lia|cbn; lia]. }
  clear H. unfold seed_ALT_data in E. cbn [dual_stress bind app] in E. unfold Rltb', Rleb in E. destruct (Rlt_dec 0 0); [lra|]. destruct (Rle_dec 1 0); [lra|]. cbn [orb life_model q_a q_n bind np_seed length randints] in E.
  unfold Rleb in E. destruct (Rle_dec 100 0); [lra|]. cbn [bind] in E. destruct (Rle_dec 1 1); [|lra]. destruct (Rle_dec 2 1); [lra|].
  cbn [combine firstn seed_loop] in E. unfold seed_step in E. cbn [make_dist String.eqb Ascii.eqb Bool.eqb] in E.
  change (IsInt 1) with (IsInt (Z.of_nat 1)) in E. rewrite !samples_plain in E by (cbn; (tauto || lia)). cbn [first_numbers map seq number after fst start cscale cloc rvs_call snd] in E.
  assert (forall x, 0 < x -> Rleb (rmin [x]) 0 = false) as P. { intros x Hx. unfold Rleb. destruct (Rle_dec (rmin [x]) 0) as [L|]; [|reflexivity]. exfalso. assert (In (rmin [x]) [x]) as I by (apply rmin_in; discriminate). destruct I as [I|[]]. lra. }
  assert (Rpower 1 1 = 1) as R1 by (unfold Rpower; rewrite ln_1, Rmult_0_r; apply exp_0).
  rewrite !P in E by (rewrite R1; lra). destruct (Req_EM_T 0 0); [|lra]. cbn [fst alt_empty ad_failures app] in E. injection E as E. rewrite R1 in E. lra.
Qed.
Print Assumptions C167_unseeded_refuted.

(** ** Where the numbers of make_ALT_data come from: stress i has a seed of its own, the i-th
    integer drawn; its samples, the order in which they are censored and the censoring times are
    all drawn from the state set by that seed, so that OtherModel.make_ALT_data (C102) describes
    the result. *)
Lemma shuffle_perm {G} (order : nat -> G -> list nat * G) g l : reorders order -> Permutation l (shuffle_at G order g l).
Proof.
  intros Ho. unfold shuffle_at, reordered. transitivity (map (fun i => nth i l 0) (seq 0 (length l))); [|now apply Permutation_map].
  assert (map (fun i => nth i l 0) (seq 0 (length l)) = l) as ->; [|reflexivity]. clear. induction l as [|x l IH]; [reflexivity|]. cbn [length seq map nth]. f_equal. rewrite <- seq_shift, map_map. exact IH.
Qed.
Definition first_state {G} (seeded : Z -> G) (entropy : G) (seed : option Z) : G := match seed with Some s => seeded s | None => entropy end.
Theorem C167_numbers_ALT : forall G (seeded : Z -> G) entropy uniform std_draw order randint name m stress_1 stress_2 p beta sigma use n fraction seed g,
  reorders order -> (forall g, (0 <= fst (randint g) < 1000000)%Z) -> (1 <= n)%nat -> good_seed seed ->
  let seed_of i := seeded (integer randint (first_state seeded entropy seed) i) in
  fst (seed_ALT_data G seeded entropy uniform std_draw order randint name m stress_1 stress_2 p beta sigma use (IsInt (Z.of_nat n)) fraction seed g) =
  make_ALT_data (fun i d => samples_from std_draw d n (seed_of i))
                (fun i l => reordered (fst (order (length l) (seed_of i))) l)
                (fun i k => first_numbers uniform (snd (order n (seed_of i))) k)
                name m stress_1 stress_2 p beta sigma use fraction.
Proof.
  intros G seeded entropy uniform std_draw order randint name m stress_1 stress_2 p beta sigma use n fraction seed g Ho Hr Hn Hs seed_of. unfold seed_ALT_data, make_ALT_data.
  set (s1 := stress_1 ++ _). set (E2 := if dual_stress m then _ else _).
  assert (forall s2, E2 = Ok s2 -> length (firstn (length stress_1) (combine s1 s2)) = length stress_1) as HL.
  { intros s2 H. rewrite firstn_combine, combine_length, !firstn_length. assert (length s2 = length s1) as ->.
    { unfold E2 in H. destruct (dual_stress m); [|now injection H as <-]. destruct stress_2 as [l|]; [|discriminate]. destruct (length (l ++ _) =? length s1)%nat eqn:E; [|discriminate]. injection H as <-. now apply Nat.eqb_eq in E. }
    unfold s1. rewrite app_length. lia. }
  destruct E2 as [s2|e]; [|reflexivity]. specialize (HL s2 eq_refl). cbn [bind]. destruct (Rltb' fraction 0 || Rleb 1 fraction); [reflexivity|]. destruct (life_model m p) as [life|e]; [|reflexivity]. cbn [bind].
  assert (np_seed G seeded entropy seed g = Ok (first_state seeded entropy seed)) as ->. { destruct seed as [s|]; [|reflexivity]. cbn [np_seed first_state]. now apply reseed_ok. }
  cbn [bind]. rewrite randints_eq.
  pose proof (loop_refines G seeded uniform std_draw order (dual_stress m) fraction n name beta sigma life (integer randint (first_state seeded entropy seed)) Ho) as L.
  specialize (L ltac:(intros i; cbn; unfold integer; specialize (Hr (after_int randint i (first_state seeded entropy seed))); lia) Hn (firstn (length stress_1) (combine s1 s2)) 0%nat alt_empty (after_int randint (length stress_1) (first_state seeded entropy seed))).
  rewrite HL in L. unfold shuffle_at, rand_at in L. fold seed_of in L. unfold seed_of. rewrite <- L. clear L.
  destruct (seed_loop _ _ _ _ _ _ _ _ _ _ _ _ _) as [[data|e] g2]; [|reflexivity]. cbn [fst bind]. destruct use as [u|]; [|reflexivity]. destruct (make_dist _ _ _ _); reflexivity.
Qed.
Print Assumptions C167_numbers_ALT.

(** In terms of the data returned. *)
Theorem C167_levels : forall G (seeded : Z -> G) entropy uniform std_draw order randint name m stress_1 stress_2 p beta sigma use n fraction seed g data ud,
  reorders order -> (forall g, (0 <= fst (randint g) < 1000000)%Z) -> (forall g, 0 <= fst (uniform g) < 1) -> (1 <= n)%nat -> good_seed seed -> Forall (fun s => 0 < s) stress_1 ->
  fst (seed_ALT_data G seeded entropy uniform std_draw order randint name m stress_1 stress_2 p beta sigma use (IsInt (Z.of_nat n)) fraction seed g) = Ok (data, ud) ->
  exists levels, length levels = length stress_1 /\ data = level_data (dual_stress m) levels /\
  forall i s1, nth_error stress_1 i = Some s1 -> exists l s2 L d,
    nth_error levels i = Some l /\ (dual_stress m = true -> exists l2, stress_2 = Some l2 /\ nth_error l2 i = Some s2) /\
    life_stress m p s1 s2 L /\ with_life name beta sigma L d /\
    level_of fraction (samples_from std_draw d n (seeded (integer randint (first_state seeded entropy seed) i))) (s1, s2) l.
Proof.
  intros G seeded entropy uniform std_draw order randint name m stress_1 stress_2 p beta sigma use n fraction seed g data ud Ho Hr Hu Hn Hs Pos H.
  rewrite C167_numbers_ALT in H by assumption. apply C102_levels in H.
  - destruct H as (ls & Ll & E & A). exists ls. split; [exact Ll|]. split; [exact E|]. intros i s1 Hi. destruct (A i s1 Hi) as (l & s2 & L & d & A1 & A2 & A3 & A4 & A5 & _). exists l, s2, L, d. auto.
  - intros i l. apply (shuffle_perm order (seeded (integer randint (first_state seeded entropy seed) i)) l Ho).
  - intros i k. split; [apply first_length|]. unfold first_numbers. apply Forall_forall. intros u Iu. apply in_map_iff in Iu as (j & <- & _). apply Hu.
  - exact Pos.
Qed.
Print Assumptions C167_levels.

(** ** Adding stresses does not change the data of the stresses before them. *)
Theorem C167_prefix : forall G (seeded : Z -> G) entropy uniform std_draw order randint name m stress_1 more_1 stress_2 stress_2' p beta sigma use n fraction seed g data ud,
  (dual_stress m = true -> exists l2 more_2, stress_2 = Some l2 /\ stress_2' = Some (l2 ++ more_2) /\ length l2 = length stress_1) ->
  fst (seed_ALT_data G seeded entropy uniform std_draw order randint name m (stress_1 ++ more_1) stress_2' p beta sigma use n fraction seed g) = Ok (data, ud) ->
  exists data0, fst (seed_ALT_data G seeded entropy uniform std_draw order randint name m stress_1 stress_2 p beta sigma use n fraction seed g) = Ok (data0, ud) /\ extends data0 data.
Proof.
  intros G seeded entropy uniform std_draw order randint name m stress_1 more_1 stress_2 stress_2' p beta sigma use n fraction seed g data ud HD H. unfold seed_ALT_data in *.
  set (u1 := match use with Some u => [fst u] | None => [] end) in *. set (u2 := match use with Some u => [snd u] | None => [] end) in *.
  assert (length u2 = length u1) as Lu by (unfold u1, u2; destruct use; reflexivity).
  (* the second stresses of both calls *)
  assert (exists t more ue,
    (if dual_stress m then match stress_2 with None => Err ValueError | Some l => if (length (l ++ u2) =? length (stress_1 ++ u1))%nat then Ok (l ++ u2) else Err ValueError end else Ok (stress_1 ++ u1)) = Ok (t ++ ue) /\
    forall e, (if dual_stress m then match stress_2' with None => Err ValueError | Some l => if (length (l ++ u2) =? length ((stress_1 ++ more_1) ++ u1))%nat then Ok (l ++ u2) else Err ValueError end else Ok ((stress_1 ++ more_1) ++ u1)) = Ok e ->
      e = (t ++ more) ++ ue /\ length t = length stress_1 /\ length more = length more_1 /\ (use <> None -> ue <> [])) as (t & more & ue & -> & E2).
  { destruct (dual_stress m).
    - destruct (HD eq_refl) as (l2 & more2 & -> & -> & L2). exists l2, more2, u2. rewrite !app_length, L2, Lu, Nat.eqb_refl. split; [reflexivity|]. intros e He.
      match type of He with (if ?c then _ else _) = _ => destruct c eqn:E end; [|discriminate]. apply Nat.eqb_eq in E. injection He as <-. split; [reflexivity|]. split; [reflexivity|]. split; [lia|]. unfold u2. destruct use; [discriminate|congruence].
    - exists stress_1, more_1, u1. split; [reflexivity|]. intros e He. injection He as <-. repeat split. unfold u1. destruct use; [discriminate|congruence]. }
  cbv zeta in *. fold u1 u2 in H. fold u1 u2. destruct (if dual_stress m then _ else _) as [s2'|e] eqn:E2'; [|discriminate]. destruct (E2 s2' eq_refl) as (-> & Lt & Lm & Hue). clear E2 E2'. cbn [bind] in *.
  destruct (Rltb' fraction 0 || Rleb 1 fraction); [discriminate|]. destruct (life_model m p) as [life|e]; [|discriminate]. cbn [bind] in *. destruct (np_seed G seeded entropy seed g) as [g0|e]; [|discriminate]. cbn [bind] in *.
  assert (firstn (length (stress_1 ++ more_1)) (combine ((stress_1 ++ more_1) ++ u1) ((t ++ more) ++ ue)) = combine stress_1 t ++ combine more_1 more) as EC.
  { rewrite firstn_combine. rewrite firstn_app, Nat.sub_diag, firstn_O, app_nil_r, firstn_all. assert (length (stress_1 ++ more_1) = length (t ++ more)) as -> by (rewrite !app_length; lia). rewrite firstn_app, Nat.sub_diag, firstn_O, app_nil_r, firstn_all. now apply combine_app'. }
  assert (firstn (length stress_1) (combine (stress_1 ++ u1) (t ++ ue)) = combine stress_1 t) as EC0.
  { rewrite firstn_combine. rewrite firstn_app, Nat.sub_diag, firstn_O, app_nil_r, firstn_all. rewrite <- Lt, firstn_app, Nat.sub_diag, firstn_O, app_nil_r, firstn_all. reflexivity. }
  rewrite EC in H. rewrite EC0. rewrite app_length in H. destruct (randints_prefix G randint (length stress_1) (length more_1) g0) as (zs & Ez & Lz & Lz0).
  destruct (randints G randint (length stress_1 + length more_1) g0) as [seeds' g1']. destruct (randints G randint (length stress_1) g0) as [seeds g1]. cbn [fst] in Ez, Lz0. subst seeds'.
  rewrite combine_app' in H by (rewrite combine_length, Lt, Nat.min_id; exact Lz0). rewrite loop_app in H.
  set (mk := make_dist name beta sigma) in *. pose proof (loop_state G seeded uniform std_draw order (dual_stress m) fraction n mk life (combine seeds (combine stress_1 t)) alt_empty g1' g1) as LS.
  destruct (seed_loop _ _ _ _ _ _ _ _ _ _ (combine seeds _) _ g1') as [[data0|e] h1]; [|discriminate]. destruct (seed_loop _ _ _ _ _ _ _ _ _ _ (combine seeds _) _ g1) as [r h2]. cbn [fst] in LS. subst r.
  destruct (seed_loop _ _ _ _ _ _ _ _ _ _ (combine zs _) _ _) as [[data'|e] h3] eqn:EL; [|discriminate].
  assert (extends data0 data') as X. { eapply (loop_extends G seeded uniform std_draw order). rewrite EL. reflexivity. }
  exists data0. destruct use as [u|].
  - assert (last ((stress_1 ++ more_1) ++ u1) 0 = last (stress_1 ++ u1) 0) as El1 by (unfold u1; now rewrite !last_last). rewrite El1 in H.
    assert (last ((t ++ more) ++ ue) 0 = last (t ++ ue) 0) as El2. { destruct (exists_last (Hue ltac:(discriminate))) as (a & b & ->). now rewrite !app_assoc, !last_last. }
    rewrite El2 in H. destruct (mk _) as [d|e]; [|discriminate]. cbn [fst] in *. injection H as <- <-. split; [reflexivity|exact X].
  - cbn [fst] in *. injection H as <- <-. split; [reflexivity|exact X].
Qed.
Print Assumptions C167_prefix.
Example C167_ALT_ex : exists data, Forall (fun s => 0 < s) [1; 2; 3] /\
  fst (seed_ALT_data nat Z.to_nat 0%nat (fun g => (1 / 4, S g)) (fun _ g => (INR g + 1, S g)) (fun n g => (rev (seq 0 n), S g)) (fun g => (Z.of_nat g mod 1000000, S g)%Z)
    "Weibull" LS_Power ([1; 2] ++ [3]) None {| q_a := Some 100; q_b := None; q_c := None; q_n := Some 1; q_m := None |} (Some 2) None (Some (1, 0)) (IsInt (Z.of_nat 2)) (1 / 2) (Some 5%Z) 9%nat) = Ok (data, Some (Weibull (100 * Rpower 1 1) 2 0)).
Proof.
  rewrite C167_numbers_ALT; [| |intros g; cbn [fst]; apply Z.mod_pos_bound; lia|lia|cbn; lia].
  2:{ intros n g. cbn [fst]. apply Permutation_rev. }
  unfold make_ALT_data. cbn [dual_stress bind app]. unfold Rltb', Rleb. destruct (Rlt_dec (1 / 2) 0); [lra|]. destruct (Rle_dec 1 (1 / 2)); [lra|]. cbn [orb life_model q_a q_n bind].
  unfold Rleb. destruct (Rle_dec 100 0); [lra|]. cbn [bind length combine firstn alt_loop]. unfold alt_step. cbn [make_dist String.eqb Ascii.eqb Bool.eqb bind].
  assert (forall g s, Rleb (rmin (samples_from (fun _ (g : nat) => (INR g + 1, S g)) (Weibull (100 * Rpower s 1) 2 0) 2 g)) 0 = false) as P.
  { intros g s. unfold Rleb. destruct (Rle_dec (rmin _) 0) as [L|]; [|reflexivity]. exfalso. assert (0 < Rpower s 1) as Hp by (unfold Rpower; apply exp_pos).
    match type of L with rmin ?l <= _ => assert (In (rmin l) l) as I by (apply rmin_in; discriminate); set (v := rmin l) in * end. unfold samples_from in I. apply in_map_iff in I as (y & <- & Iy). unfold first_numbers in Iy. apply in_map_iff in Iy as (j & <- & _).
    unfold number in L. cbn [fst scale_of shift_of] in L. pose proof (pos_INR (after (fun g : nat => (INR g + 1, S g)) j g)). nra. }
  rewrite !P. destruct (Req_EM_T (1 / 2) 0); [lra|]. unfold make_right_censored_data. unfold Rltb', Rleb. destruct (Rlt_dec (1 / 2) 0); [lra|]. destruct (Rle_dec 1 (1 / 2)); [lra|]. cbn [orb fst snd bind last].
  eexists. split; [repeat constructor; lra|]. reflexivity.
Qed.
