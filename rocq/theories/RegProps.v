(** Properties C64 and C65: straight line fitting and linearised least squares. *)
From Coquelicot Require Import Coquelicot.
From Coq Require Import List Arith Reals Lra Lia Bool.
From Verif Require Import Base RealFacts Gauss Ext RList Linear DistModel DistSpec DistProofs CombModel RegModel RegSpec RegProofs.
Import ListNotations.
Open Scope R_scope.

(** ** C64 *)
Theorem C64_vertical x y slope xi yi m c : linear_regression x y slope xi yi (Some RRY) = Ok (Some (m, c)) ->
  length x = length y /\ xi = None /\ honours slope m /\ honours yi c /\
  forall m' c', honours slope m' -> honours yi c' -> vertical (combine x y) m c <= vertical (combine x y) m' c'.
Proof. exact (rry_optimal x y slope xi yi m c). Qed.
Print Assumptions C64_vertical.

(** For RRX a forced slope is dx/dy; a forced intercept is where the line crosses y = 0. *)
Theorem C64_horizontal x y slope xi yi m c : linear_regression x y slope xi yi (Some RRX) = Ok (Some (m, c)) ->
  length x = length y /\ yi = None /\ m <> 0 /\ honours slope (1 / m) /\ (forall x0, xi = Some x0 -> m * x0 + c = 0) /\
  forall m' c', m' <> 0 -> honours slope (1 / m') -> (forall x0, xi = Some x0 -> m' * x0 + c' = 0) ->
    horizontal (combine x y) m c <= horizontal (combine x y) m' c'.
Proof. exact (rrx_optimal x y slope xi yi m c). Qed.
Print Assumptions C64_horizontal.

(** Without forcing, the line exists as soon as two abscissae differ (RRY); for RRX two
    ordinates must differ and the points be correlated. Equal abscissae give RuntimeError. *)
Theorem C64_found x y : length x = length y ->
  (two_different x -> exists m c, linear_regression x y None None None (Some RRY) = Ok (Some (m, c))) /\
  ((2 <= length x)%nat -> ~ two_different x -> linear_regression x y None None None (Some RRY) = Err RuntimeError) /\
  (two_different y -> Sxy (combine y x) <> 0 -> exists m c, linear_regression x y None None None (Some RRX) = Ok (Some (m, c))) /\
  ((length x < 2)%nat -> forall me, linear_regression x y None None None (Some me) = Err ValueError).
Proof.
  intros Hl. split; [now apply rry_success|]. split; [intros; now apply rry_same_x|]. split; [now apply rrx_success|].
  intros H me. unfold linear_regression. rewrite (proj2 (Nat.eqb_eq _ _) Hl). cbn [negb]. destruct (Nat.ltb_spec (length x) 2); [|lia]. now destruct me.
Qed.
Print Assumptions C64_found.
Theorem C64_rejected x y slope xi yi :
  (length x <> length y -> forall me, linear_regression x y slope xi yi me = Err ValueError) /\
  linear_regression x y slope xi yi None = Err ValueError /\
  (xi <> None -> linear_regression x y slope xi yi (Some RRY) = Err ValueError) /\
  (yi <> None -> linear_regression x y slope xi yi (Some RRX) = Err ValueError) /\
  (slope <> None -> (xi <> None \/ yi <> None) -> forall me, linear_regression x y slope xi yi me = Err ValueError).
Proof.
  unfold linear_regression. destruct (Nat.eqb_spec (length x) (length y)); cbn [negb]; repeat split; intros; try congruence; try reflexivity;
    destruct slope, xi, yi; try congruence; try reflexivity; repeat match goal with H : option rr |- _ => destruct H | H : rr |- _ => destruct H | H : _ \/ _ |- _ => destruct H end; congruence || reflexivity.
Qed.
Print Assumptions C64_rejected.
Example C64_case : exists m c, linear_regression [1; 2; 4] [3; 1; 7] None None None (Some RRX) = Ok (Some (m, c)) /\ m <> 0.
Proof.
  destruct (rrx_success [1; 2; 4] [3; 1; 7]) as (m & c & H); [reflexivity|exists 3, 1; simpl; split; [auto|split; [auto|lra]]| |].
  - rewrite Sxy_eq by discriminate. unfold rsum. cbn. lra.
  - exists m, c. split; [exact H|]. apply (rrx_optimal _ _ _ _ _ _ _ H).
Qed.

(** ** C65 *)
Theorem C65_exact_recovery d p D failures x me force :
  fitted_dist d p = Some D -> valid D ->
  (signed_dist d = true \/ (Forall (Rlt 0) failures /\ Forall (Rlt 0) x)) ->
  (force = None \/ (shape_dist d = true /\ force = Some (shape_of d p))) ->
  x <> [] -> (two_different x \/ force <> None \/ d = LS_Exponential) ->
  least_squares d failures x (map (cdf D) x) (Some me) force = Ok (Some p).
Proof. exact (least_squares_exact d p D failures x me force). Qed.
Print Assumptions C65_exact_recovery.
Example C65_case : least_squares LS_Weibull [10; 20; 30] [10; 20; 30] (map (cdf (Weibull 50 3 0)) [10; 20; 30]) (Some RRX) None = Ok (Some [50; 3]).
Proof.
  apply (least_squares_exact LS_Weibull [50; 3] (Weibull 50 3 0)); [reflexivity|cbn; lra| |now left|discriminate|].
  - right. split; repeat (apply Forall_cons; [lra|]); apply Forall_nil.
  - left. exists 10, 20. simpl. split; [auto|]. split; [auto|lra].
Qed.

(** A forced shape is always reported back, whatever the data. *)
Theorem C65_forced_shape d failures x y me s p : shape_dist d = true -> 0 < s ->
  least_squares d failures x y (Some me) (Some s) = Ok (Some p) -> shape_of d p = s.
Proof.
  intros Hd Hs. unfold least_squares. destruct (existsb _ failures && _); [discriminate|]. rewrite Hd. cbn [negb bind]. intros H.
  apply bind_ok in H. destruct H as (line & H1 & H2). destruct line as [[m c]|]; [|discriminate].
  assert (forall w, forced_slope d me (Some s) = Some w -> (match me with RRX => 1 / m = w | RRY => m = w end)) as HW.
  { intros w Hw. destruct me.
    - apply rrx_optimal in H1. destruct H1 as (_ & _ & _ & H1 & _). apply H1. exact Hw.
    - apply rry_optimal in H1. destruct H1 as (_ & _ & H1 & _). apply H1. exact Hw. }
  assert (m <> 0) as Hm.
  { destruct me; [apply rrx_optimal in H1; apply H1|]. intros ->. destruct d; try discriminate Hd; cbn [forced_slope option_map] in HW; specialize (HW _ eq_refl); cbn beta in HW; try lra.
    - assert (0 < 1 / s) by (apply Rdiv_lt_0_compat; lra). lra.
    - assert (0 < 1 / s) by (apply Rdiv_lt_0_compat; lra). lra. }
  injection H2 as H2. destruct d; try discriminate Hd; cbn [line_params] in H2; (destruct (Req_EM_T m 0); [contradiction|]); injection H2 as <-; unfold shape_of; cbn [nth];
    destruct me; cbn [forced_slope option_map] in HW; specialize (HW _ eq_refl); cbn beta in HW; try lra.
  - apply (f_equal (fun z => 1 / z)) in HW. replace (1 / (1 / m)) with m in HW by (field; exact Hm). replace (1 / (1 / s)) with s in HW by (field; lra). exact HW.
  - subst m. field. lra.
  - subst m. field. lra.
Qed.
Print Assumptions C65_forced_shape.
