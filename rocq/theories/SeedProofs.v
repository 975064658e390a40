(** Proofs about the seeds of make_right_censored_data and make_ALT_data. *)
From Coquelicot Require Import Coquelicot.
From Coq Require Import String.
From Coq Require Import List Arith Reals Lra Lia Bool NArith ZArith Permutation.
From Verif Require Import Base RealFacts Ext RList ConvertModel RepairModel TestingModel DistModel CombModel SelModel CIModel OtherModel OtherSpec RandModel RandSpec RandProofs SeedModel SeedSpec.
Import ListNotations.
Open Scope R_scope.

Lemma firstn_combine {A B} n : forall (a : list A) (b : list B), firstn n (combine a b) = combine (firstn n a) (firstn n b).
Proof. induction n as [|n IH]; intros [|x a] [|y b]; try reflexivity. cbn [combine firstn]. now rewrite IH. Qed.
Lemma combine_app' {A B} (a a' : list A) (b b' : list B) : length a = length b -> combine (a ++ a') (b ++ b') = combine a b ++ combine a' b'.
Proof. revert b. induction a as [|x a IH]; intros [|y b] L; try discriminate; [reflexivity|]. cbn [app combine]. rewrite IH; [reflexivity|]. now injection L. Qed.
Lemma make_dist_not_beta name beta sigma life d : make_dist name beta sigma life = Ok d -> ~ is_beta d.
Proof.
  unfold make_dist. repeat match goal with |- context [if ?c then _ else _] => destruct c end; destruct beta, sigma; intros H; try discriminate; injection H as <-; cbn; tauto.
Qed.
Lemma samples_cs d : scale_of d = cscale d /\ shift_of d = cloc d.
Proof. destruct d; split; reflexivity. Qed.
Lemma extends_refl d : extends d d.
Proof. do 6 exists []. now rewrite !app_nil_r. Qed.
Lemma extends_trans d1 d2 d3 : extends d1 d2 -> extends d2 d3 -> extends d1 d3.
Proof.
  intros (a1 & a2 & a3 & a4 & a5 & a6 & A1 & A2 & A3 & A4 & A5 & A6) (b1 & b2 & b3 & b4 & b5 & b6 & B1 & B2 & B3 & B4 & B5 & B6).
  exists (a1 ++ b1), (a2 ++ b2), (a3 ++ b3), (a4 ++ b4), (a5 ++ b5), (a6 ++ b6). rewrite B1, B2, B3, B4, B5, B6, A1, A2, A3, A4, A5, A6, !app_assoc. repeat split.
Qed.

Section Generator.
  Variable G : Type.
  Variable seeded : Z -> G.
  Variable uniform : G -> R * G.
  Variable std_draw : dist -> G -> R * G.
  Variable order : nat -> G -> list nat * G.
  Variable randint : G -> Z * G.
  Notation step := (seed_step G seeded uniform std_draw order).
  Notation loop := (seed_loop G seeded uniform std_draw order).
  Notation cens := (censor G seeded uniform order).

  Lemma cens_seed data threshold fraction s g1 g2 : threshold = None -> good_seed (Some s) -> cens data threshold fraction (Some s) g1 = cens data threshold fraction (Some s) g2.
  Proof.
    intros -> Hs. unfold censor. rewrite (proj2 (reseed_ok seeded (Some s) g1 _) (conj Hs eq_refl)), (proj2 (reseed_ok seeded (Some s) g2 _) (conj Hs eq_refl)). reflexivity.
  Qed.
  Lemma samples_seed fuel d c s g1 g2 : random_samples G seeded std_draw fuel d c (Some s) g1 = random_samples G seeded std_draw fuel d c (Some s) g2.
  Proof. reflexivity. Qed.
  Lemma step_state dual f c mk life z s1 s2 acc g1 g2 : fst (step dual f c mk life z s1 s2 acc g1) = fst (step dual f c mk life z s1 s2 acc g2) /\
    (forall x, fst (step dual f c mk life z s1 s2 acc g1) = Ok x -> step dual f c mk life z s1 s2 acc g1 = step dual f c mk life z s1 s2 acc g2).
  Proof.
    unfold seed_step. destruct (mk (life s1 s2)) as [d|e]; [|split; [reflexivity|discriminate]].
    rewrite (samples_seed 0 d c z g1 g2). destruct (random_samples _ _ _ _ _ _ _ g2) as [[(raw, g)|e]|]; try (split; [reflexivity|discriminate]). split; reflexivity.
  Qed.
  Lemma loop_state dual f c mk life ls : forall acc g1 g2, fst (loop dual f c mk life ls acc g1) = fst (loop dual f c mk life ls acc g2).
  Proof.
    destruct ls as [|(z, (s1, s2)) ls]; intros acc g1 g2; [reflexivity|]. cbn [seed_loop]. destruct (step_state dual f c mk life z s1 s2 acc g1 g2) as [E1 E2].
    destruct (step _ _ _ _ _ _ _ _ _ g1) as [[x|e] h1]; cbn [fst] in *.
    - specialize (E2 x eq_refl). rewrite <- E2. reflexivity.
    - destruct (step _ _ _ _ _ _ _ _ _ g2) as [[x|e'] h2]; cbn [fst] in *; [discriminate|]. congruence.
  Qed.
  Lemma step_extends dual f c mk life z s1 s2 acc g acc' : fst (step dual f c mk life z s1 s2 acc g) = Ok acc' -> extends acc acc'.
  Proof.
    unfold seed_step. destruct (mk (life s1 s2)) as [d|e]; [|discriminate]. destruct (random_samples _ _ _ _ _ _ _ g) as [[(raw, g1)|e]|]; try discriminate.
    destruct (Rleb (rmin raw) 0); [discriminate|]. destruct (Req_EM_T f 0) as [_|_].
    - cbn [fst]. intros H. injection H as <-. exists raw, (map (fun _ => s1) raw), (if dual then map (fun _ => s2) raw else []), [], [], []. cbn [ad_failures ad_fs1 ad_fs2 ad_censored ad_cs1 ad_cs2]. rewrite !app_nil_r. repeat split.
    - destruct (cens _ _ _ _ _) as [[[fc|e] da] g2]; [|discriminate]. cbn [fst]. intros H. injection H as <-. do 6 eexists. cbn [ad_failures ad_fs1 ad_fs2 ad_censored ad_cs1 ad_cs2]. repeat split.
  Qed.
  Lemma loop_extends dual f c mk life ls : forall acc g acc', fst (loop dual f c mk life ls acc g) = Ok acc' -> extends acc acc'.
  Proof.
    induction ls as [|(z, (s1, s2)) ls IH]; intros acc g acc' H; [cbn [seed_loop fst] in H; injection H as <-; apply extends_refl|].
    cbn [seed_loop] in H. destruct (step dual f c mk life z s1 s2 acc g) as [[x|e] g1] eqn:E; [|discriminate]. eapply extends_trans; [|eapply IH, H]. eapply step_extends. rewrite E. reflexivity.
  Qed.
  Lemma loop_app dual f c mk life l2 l1 : forall acc g, loop dual f c mk life (l1 ++ l2) acc g =
    match loop dual f c mk life l1 acc g with (Err e, g1) => (Err e, g1) | (Ok acc', g1) => loop dual f c mk life l2 acc' g1 end.
  Proof.
    induction l1 as [|(z, (s1, s2)) l1 IH]; intros acc g; [reflexivity|]. cbn [app seed_loop]. destruct (step _ _ _ _ _ _ _ _ _ g) as [[x|e] g1]; [apply IH|reflexivity].
  Qed.
  Lemma randints_eq n : forall g, randints G randint n g = (map (integer randint g) (seq 0 n), after_int randint n g).
  Proof.
    induction n as [|n IH]; intros g; [reflexivity|]. cbn [randints]. destruct (randint g) as [z g1] eqn:E. rewrite IH. cbn [after_int seq map]. rewrite E. cbn [snd]. f_equal. f_equal; [unfold integer; cbn; now rewrite E|].
    rewrite <- seq_shift, map_map. apply map_ext. intros i. unfold integer. cbn [after_int]. now rewrite E.
  Qed.
  Lemma randints_prefix n m g : exists more, fst (randints G randint (n + m) g) = fst (randints G randint n g) ++ more /\ length more = m /\ length (fst (randints G randint n g)) = n.
  Proof. rewrite !randints_eq. cbn [fst]. rewrite seq_app, map_app. eexists. split; [reflexivity|]. now rewrite !map_length, !seq_length. Qed.

  (** The functions with the random numbers given from outside. *)
  Definition shuffle_at (g : G) (l : list R) : list R := reordered (fst (order (length l) g)) l.
  Definition rand_at (n : nat) (g : G) (k : nat) : list R := first_numbers uniform (snd (order n g)) k.
  Lemma cens_refines data threshold fraction seed g : reorders order -> good_seed seed ->
    fst (cens data threshold fraction seed g) =
    make_right_censored_data (shuffle_at (start seeded seed g)) (rand_at (length (contents data)) (start seeded seed g)) data threshold fraction.
  Proof.
    intros Ho Hs. unfold censor, make_right_censored_data. destruct threshold as [t|].
    - destruct fraction; reflexivity.
    - rewrite (proj2 (reseed_ok seeded seed g _) (conj Hs eq_refl)). unfold shuffle, shuffle_at, rand_at, reordered.
      pose proof (Permutation_length (Ho (length (contents data)) (start seeded seed g))) as L. rewrite seq_length in L.
      destruct (order (length (contents data)) (start seeded seed g)) as [pos g1]. cbn [fst snd] in *.
      destruct fraction as [f|]; (destruct (_ || _); [reflexivity|]); rewrite map_length, <- L, draws_eq; reflexivity.
  Qed.
  Lemma step_refines dual f n name beta sigma life z s1 s2 acc g i (samples : nat -> dist -> list R) (sh : nat -> list R -> list R) (rand : nat -> nat -> list R) :
    reorders order -> good_seed (Some z) -> (1 <= n)%nat ->
    samples i = (fun d => samples_from std_draw d n (seeded z)) -> sh i = shuffle_at (seeded z) -> rand i = rand_at n (seeded z) ->
    fst (step dual f (IsInt (Z.of_nat n)) (make_dist name beta sigma) life z s1 s2 acc g) = alt_step dual f samples sh rand (make_dist name beta sigma) life i s1 s2 acc.
  Proof.
    intros Ho Hz Hn Es Esh Er. unfold seed_step, alt_step. rewrite Es, Esh, Er. clear Es Esh Er. destruct (make_dist name beta sigma (life s1 s2)) as [d|e] eqn:Ed; [|reflexivity]. apply make_dist_not_beta in Ed. cbn [bind].
    rewrite samples_plain by assumption. cbn [start]. assert (map (fun y => y * cscale d + cloc d) (first_numbers (std_draw (standard d)) (seeded z) n) = samples_from std_draw d n (seeded z)) as ->.
    { unfold samples_from. destruct (samples_cs d) as [-> ->]. reflexivity. }
    assert (length (samples_from std_draw d n (seeded z)) = n) as L by (unfold samples_from; now rewrite map_length, first_length).
    set (raw := samples_from std_draw d n (seeded z)) in *. clearbody raw. destruct (Rleb (rmin raw) 0); [reflexivity|]. destruct (Req_EM_T f 0); [reflexivity|].
    pose proof (cens_refines (NdArray raw) None (Some f) (Some z) (after (std_draw (standard d)) n (seeded z)) Ho Hz) as C. cbn [start contents] in C. rewrite L in C. rewrite <- C.
    destruct (cens _ _ _ _ _) as [[[fc|e] da] g2]; reflexivity.
  Qed.
  Lemma loop_refines dual f n name beta sigma life (zs : nat -> Z) : reorders order -> (forall i, good_seed (Some (zs i))) -> (1 <= n)%nat ->
    forall st i acc g, fst (loop dual f (IsInt (Z.of_nat n)) (make_dist name beta sigma) life (combine (map zs (seq i (length st))) st) acc g) =
    alt_loop dual f (fun i d => samples_from std_draw d n (seeded (zs i))) (fun i => shuffle_at (seeded (zs i))) (fun i => rand_at n (seeded (zs i))) (make_dist name beta sigma) life i st acc.
  Proof.
    intros Ho Hz Hn. induction st as [|(s1, s2) st IH]; intros i acc g; [reflexivity|]. cbn [length seq map combine seed_loop alt_loop].
    rewrite <- (step_refines dual f n name beta sigma life (zs i) s1 s2 acc g i) by (auto || reflexivity). destruct (step _ _ _ _ _ _ _ _ _ g) as [[x|e] g1]; cbn [fst bind]; [apply IH|reflexivity].
  Qed.
End Generator.
