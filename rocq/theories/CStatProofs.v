(** Simpson's rule on an equally spaced grid. *)
From Coquelicot Require Import Coquelicot.
From Coq Require Import List Arith Reals Lra Lia Bool ZArith.
From Verif Require Import Base RealFacts Ext RList DistModel RepairModel CombModel CombSpec CombProofs2 CStatModel.
Import ListNotations.
Open Scope R_scope.

Fixpoint nodes (a h : R) (n : nat) : list R := match n with O => [] | S n => a :: nodes (a + h) h n end.

Lemma nodes_length n : forall a h, length (nodes a h n) = n.
Proof. induction n; intros; cbn; auto. Qed.
Lemma nodes_map n : forall a h s, nodes (a + INR s * h) h n = map (fun i => a + INR i * h) (seq s n).
Proof.
  induction n as [|n IH]; intros a h s; [reflexivity|]. cbn [nodes seq map]. f_equal.
  rewrite <- IH. f_equal. rewrite S_INR. ring.
Qed.

Lemma pair_equal a h y0 y1 y2 : h <> 0 -> simpson_pair a (a + h) (a + h + h) y0 y1 y2 = h / 3 * (y0 + 4 * y1 + y2).
Proof.
  intros H. unfold simpson_pair. cbv zeta. replace (a + h - a) with h by ring. replace (a + h + h - (a + h)) with h by ring.
  unfold sdiv. destruct (Req_EM_T h 0) as [C|_]; [contradiction|].
  replace (h / h) with 1 by (field; assumption).
  destruct (Req_EM_T 1 0) as [C|_]; [lra|]. destruct (Req_EM_T (h * h) 0) as [C|_]; [apply Rmult_integral in C; tauto|]. field. assumption.
Qed.
Lemma last_equal a h y1 y2 y3 : h <> 0 -> simpson_last a (a + h) (a + h + h) y1 y2 y3 = h * (5 / 12 * y3 + 2 / 3 * y2 - 1 / 12 * y1).
Proof.
  intros H. unfold simpson_last. cbv zeta. replace (a + h - a) with h by ring. replace (a + h + h - (a + h)) with h by ring.
  unfold sdiv. destruct (Req_EM_T (6 * (h + h)) 0) as [C|_]; [exfalso; apply H; lra|].
  destruct (Req_EM_T (6 * h) 0) as [C|_]; [exfalso; apply H; lra|].
  destruct (Req_EM_T (6 * h * (h + h)) 0) as [C|_].
  { exfalso. apply H. assert (h * h = 0) as E by lra. apply Rmult_integral in E. tauto. }
  field. lra.
Qed.

(** The rule on the values of a function, in terms of the step. *)
Lemma simpson_3 f a h : h <> 0 -> simpson (map f (nodes a h 3)) (nodes a h 3) = h / 3 * (f a + 4 * f (a + h) + f (a + h + h)).
Proof. intros H. cbn [nodes map simpson]. now apply pair_equal. Qed.
Lemma simpson_4 f a h : h <> 0 -> simpson (map f (nodes a h 4)) (nodes a h 4) =
  h / 3 * (f a + 4 * f (a + h) + f (a + h + h)) + h * (5 / 12 * f (a + h + h + h) + 2 / 3 * f (a + h + h) - 1 / 12 * f (a + h)).
Proof. intros H. cbn [nodes map simpson]. rewrite pair_equal, last_equal by assumption. reflexivity. Qed.
Lemma simpson_step f a h n : h <> 0 -> simpson (map f (nodes a h (S (S (S (S (S n))))))) (nodes a h (S (S (S (S (S n)))))) =
  h / 3 * (f a + 4 * f (a + h) + f (a + h + h)) + simpson (map f (nodes (a + h + h) h (S (S (S n))))) (nodes (a + h + h) h (S (S (S n)))).
Proof. intros H. rewrite <- (pair_equal a h) by assumption. reflexivity. Qed.

Lemma two_steps (P : nat -> Prop) : P 3%nat -> P 4%nat -> (forall n, P (S (S (S n))) -> P (S (S (S (S (S n)))))) -> forall n, (3 <= n)%nat -> P n.
Proof.
  intros H3 H4 Hs. assert (forall n, P (S (S (S n))) /\ P (S (S (S (S n))))) as K.
  { induction n as [|n [A B]]; [now split|]. split; [assumption|]. now apply Hs. }
  intros n Hn. destruct n as [|[|[|n]]]; try lia. apply K.
Qed.

(** ** Sign and bounds *)
Lemma simpson_ext f g a h n : (forall x, In x (nodes a h n) -> f x = g x) -> simpson (map f (nodes a h n)) (nodes a h n) = simpson (map g (nodes a h n)) (nodes a h n).
Proof. intros H. f_equal. now apply map_ext_in. Qed.

Lemma simpson_linear f g k a h n : (3 <= n)%nat -> h <> 0 ->
  simpson (map (fun x => f x + k * g x) (nodes a h n)) (nodes a h n) =
  simpson (map f (nodes a h n)) (nodes a h n) + k * simpson (map g (nodes a h n)) (nodes a h n).
Proof.
  intros Hn H. revert a. apply (two_steps (fun n => forall a, simpson (map (fun x => f x + k * g x) (nodes a h n)) (nodes a h n) =
    simpson (map f (nodes a h n)) (nodes a h n) + k * simpson (map g (nodes a h n)) (nodes a h n))); [| | |assumption].
  - intros a. rewrite !simpson_3 by assumption. ring.
  - intros a. rewrite !simpson_4 by assumption. ring.
  - intros m IH a. rewrite !simpson_step by assumption. rewrite IH. ring.
Qed.

Lemma simpson_nonneg f a h n : (3 <= n)%nat -> 0 < h -> (forall x, In x (nodes a h n) -> 0 <= f x) ->
  0 <= simpson (map f (nodes a h n)) (nodes a h n).
Proof.
  intros Hn H. revert a. apply (two_steps (fun n => forall a, (forall x, In x (nodes a h n) -> 0 <= f x) -> 0 <= simpson (map f (nodes a h n)) (nodes a h n))); [| | |assumption].
  - intros a F. rewrite simpson_3 by lra. cbn [nodes] in F.
    pose proof (F a ltac:(simpl; tauto)). pose proof (F (a + h) ltac:(simpl; tauto)). pose proof (F (a + h + h) ltac:(simpl; tauto)).
    apply Rmult_le_pos; lra.
  - intros a F. rewrite simpson_4 by lra. cbn [nodes] in F.
    pose proof (F a ltac:(simpl; tauto)). pose proof (F (a + h) ltac:(simpl; tauto)). pose proof (F (a + h + h) ltac:(simpl; tauto)). pose proof (F (a + h + h + h) ltac:(simpl; tauto)).
    replace (_ + _) with (h * (1 / 3 * f a + (4 / 3 - 1 / 12) * f (a + h) + f (a + h + h) + 5 / 12 * f (a + h + h + h))) by field.
    apply Rmult_le_pos; lra.
  - intros m IH a F. rewrite simpson_step by lra. specialize (IH (a + h + h)).
    assert (forall x, In x (nodes (a + h + h) h (S (S (S m)))) -> 0 <= f x) as F' by (intros x Hx; apply F; do 2 right; exact Hx).
    specialize (IH F'). pose proof (F a ltac:(left; reflexivity)). pose proof (F (a + h) ltac:(right; left; reflexivity)). pose proof (F (a + h + h) ltac:(right; right; left; reflexivity)).
    assert (0 <= h / 3 * (f a + 4 * f (a + h) + f (a + h + h))) by (apply Rmult_le_pos; lra). lra.
Qed.
Lemma simpson_pos f a h n : (3 <= n)%nat -> 0 < h -> (forall x, In x (nodes a h n) -> 0 <= f x) -> 0 < f a ->
  0 < simpson (map f (nodes a h n)) (nodes a h n).
Proof.
  intros Hn H F Fa. destruct (Nat.eq_dec n 3) as [->|N3].
  - rewrite simpson_3 by lra. cbn [nodes] in F. pose proof (F (a + h) ltac:(simpl; tauto)). pose proof (F (a + h + h) ltac:(simpl; tauto)).
    apply Rmult_lt_0_compat; lra.
  - destruct (Nat.eq_dec n 4) as [->|N4].
    + rewrite simpson_4 by lra. cbn [nodes] in F. pose proof (F (a + h) ltac:(simpl; tauto)). pose proof (F (a + h + h) ltac:(simpl; tauto)). pose proof (F (a + h + h + h) ltac:(simpl; tauto)).
      replace (_ + _) with (h * (1 / 3 * f a + (4 / 3 - 1 / 12) * f (a + h) + f (a + h + h) + 5 / 12 * f (a + h + h + h))) by field.
      apply Rmult_lt_0_compat; lra.
    + destruct n as [|[|[|[|[|m]]]]]; try lia. rewrite simpson_step by lra.
      assert (0 <= simpson (map f (nodes (a + h + h) h (S (S (S m))))) (nodes (a + h + h) h (S (S (S m))))).
      { apply simpson_nonneg; [lia|assumption|]. intros x Hx. apply F. do 2 right. exact Hx. }
      pose proof (F (a + h) ltac:(right; left; reflexivity)). pose proof (F (a + h + h) ltac:(right; right; left; reflexivity)).
      assert (0 < h / 3 * (f a + 4 * f (a + h) + f (a + h + h))) by (apply Rmult_lt_0_compat; lra). lra.
Qed.
(** Against the direction of the axis the rule changes sign. *)
Lemma simpson_neg_step f a h n : (3 <= n)%nat -> h <> 0 ->
  exists f', (forall x, f' x = f (2 * a - x)) /\ simpson (map f (nodes a h n)) (nodes a h n) = - simpson (map f' (nodes a (- h) n)) (nodes a (- h) n).
Proof.
  intros Hn H. exists (fun x => f (2 * a - x)). split; [reflexivity|].
  assert (forall c, simpson (map f (nodes c h n)) (nodes c h n) = - simpson (map (fun x => f (2 * a - x)) (nodes (2 * a - c) (- h) n)) (nodes (2 * a - c) (- h) n)) as K.
  2:{ rewrite (K a). replace (2 * a - a) with a by ring. reflexivity. }
  assert (- h <> 0) as H' by lra.
  apply (two_steps (fun n => forall c, simpson (map f (nodes c h n)) (nodes c h n) = - simpson (map (fun x => f (2 * a - x)) (nodes (2 * a - c) (- h) n)) (nodes (2 * a - c) (- h) n))); [| | |assumption].
  - intros c. rewrite !simpson_3 by assumption. replace (2 * a - (2 * a - c)) with c by ring.
    replace (2 * a - (2 * a - c + - h)) with (c + h) by ring. replace (2 * a - (2 * a - c + - h + - h)) with (c + h + h) by ring. field.
  - intros c. rewrite !simpson_4 by assumption. replace (2 * a - (2 * a - c)) with c by ring.
    replace (2 * a - (2 * a - c + - h)) with (c + h) by ring. replace (2 * a - (2 * a - c + - h + - h)) with (c + h + h) by ring.
    replace (2 * a - (2 * a - c + - h + - h + - h)) with (c + h + h + h) by ring. field.
  - intros m IH c. rewrite !simpson_step by assumption. replace (2 * a - (2 * a - c)) with c by ring.
    replace (2 * a - (2 * a - c + - h)) with (c + h) by ring. replace (2 * a - (2 * a - c + - h + - h)) with (c + h + h) by ring.
    rewrite IH. replace (2 * a - (c + h + h)) with (2 * a - c + - h + - h) by ring. field.
Qed.

(** A constant is integrated exactly. *)
Lemma simpson_const k a h n : (3 <= n)%nat -> h <> 0 -> simpson (map (fun _ => k) (nodes a h n)) (nodes a h n) = k * (INR (n - 1) * h).
Proof.
  intros Hn H. revert a. apply (two_steps (fun n => forall a, simpson (map (fun _ => k) (nodes a h n)) (nodes a h n) = k * (INR (n - 1) * h))); [| | |assumption].
  - intros a. rewrite simpson_3 by assumption. cbn [Nat.sub]. simpl; field.
  - intros a. rewrite simpson_4 by assumption. cbn [Nat.sub]. simpl; field.
  - intros m IH a. rewrite simpson_step, IH by assumption. replace (S (S (S (S (S m)))) - 1)%nat with (S (S (S (S m)))) by lia.
    replace (S (S (S m)) - 1)%nat with (S (S m)) by lia. rewrite !S_INR. field.
Qed.

(** ** Accuracy for monotone functions *)
Lemma is_RInt_bounds f a b I lo hi : a <= b -> is_RInt f a b I -> (forall x, a <= x <= b -> lo <= f x <= hi) -> (b - a) * lo <= I <= (b - a) * hi.
Proof.
  intros L HI F. split.
  - apply (is_RInt_le (fun _ => lo) f a b); [assumption|exact (is_RInt_const a b lo)|assumption|]. intros x Hx. apply F. lra.
  - apply (is_RInt_le f (fun _ => hi) a b); [assumption|assumption|exact (is_RInt_const a b hi)|]. intros x Hx. apply F. lra.
Qed.

Lemma split_integral f a b c I : a <= b <= c -> is_RInt f a c I -> exists J K, is_RInt f a b J /\ is_RInt f b c K /\ I = J + K.
Proof.
  intros L HI. assert (ex_RInt f a b) as [J HJ] by (apply (ex_RInt_Chasles_1 f a b c); [lra|now exists I]).
  assert (ex_RInt f b c) as [K HK] by (apply (ex_RInt_Chasles_2 f a b c); [lra|now exists I]).
  exists J, K. split; [assumption|]. split; [assumption|].
  pose proof (is_RInt_Chasles f a b c J K HJ HK) as E. apply (is_RInt_unique f a c) in HI. apply (is_RInt_unique f a c) in E. rewrite <- HI, E. reflexivity.
Qed.

Lemma simpson_monotone f a h n I : (3 <= n)%nat -> 0 < h ->
  (forall x y, a <= x <= y -> y <= a + INR (n - 1) * h -> f y <= f x) -> is_RInt f a (a + INR (n - 1) * h) I ->
  Rabs (simpson (map f (nodes a h n)) (nodes a h n) - I) <= h * (f a - f (a + INR (n - 1) * h)).
Proof.
  intros Hn H. revert a I.
  apply (two_steps (fun n => forall a I, (forall x y, a <= x <= y -> y <= a + INR (n - 1) * h -> f y <= f x) -> is_RInt f a (a + INR (n - 1) * h) I ->
    Rabs (simpson (map f (nodes a h n)) (nodes a h n) - I) <= h * (f a - f (a + INR (n - 1) * h)))); [| | |assumption].
  - intros a I F HI. rewrite simpson_3 by lra. cbn [Nat.sub] in *. replace (a + INR 2 * h) with (a + h + h) in * by (simpl; ring).
    destruct (split_integral f a (a + h) (a + h + h) I) as (J & K & HJ & HK & ->); [lra|assumption|].
    pose proof (is_RInt_bounds f a (a + h) J (f (a + h)) (f a) ltac:(lra) HJ) as B1.
    pose proof (is_RInt_bounds f (a + h) (a + h + h) K (f (a + h + h)) (f (a + h)) ltac:(lra) HK) as B2.
    destruct B1 as [B1 B1']; [intros x Hx; split; apply F; lra|]. destruct B2 as [B2 B2']; [intros x Hx; split; apply F; lra|].
    pose proof (F a (a + h) ltac:(lra) ltac:(lra)) as D1. pose proof (F (a + h) (a + h + h) ltac:(lra) ltac:(lra)) as D2.
    replace (a + h - a) with h in * by ring. replace (a + h + h - (a + h)) with h in * by ring.
    assert (0 <= h * (f a - f (a + h))) by (apply Rmult_le_pos; lra). assert (0 <= h * (f (a + h) - f (a + h + h))) by (apply Rmult_le_pos; lra).
    apply Rabs_le. lra.
  - intros a I F HI. rewrite simpson_4 by lra. cbn [Nat.sub] in *. replace (a + INR 3 * h) with (a + h + h + h) in * by (simpl; ring).
    destruct (split_integral f a (a + h) (a + h + h + h) I) as (J & K & HJ & HK & ->); [lra|assumption|].
    destruct (split_integral f (a + h) (a + h + h) (a + h + h + h) K) as (K1 & K2 & HK1 & HK2 & ->); [lra|assumption|].
    pose proof (is_RInt_bounds f a (a + h) J (f (a + h)) (f a) ltac:(lra) HJ) as B1.
    pose proof (is_RInt_bounds f (a + h) (a + h + h) K1 (f (a + h + h)) (f (a + h)) ltac:(lra) HK1) as B2.
    pose proof (is_RInt_bounds f (a + h + h) (a + h + h + h) K2 (f (a + h + h + h)) (f (a + h + h)) ltac:(lra) HK2) as B3.
    destruct B1 as [B1 B1']; [intros x Hx; split; apply F; lra|]. destruct B2 as [B2 B2']; [intros x Hx; split; apply F; lra|]. destruct B3 as [B3 B3']; [intros x Hx; split; apply F; lra|].
    pose proof (F a (a + h) ltac:(lra) ltac:(lra)) as D1. pose proof (F (a + h) (a + h + h) ltac:(lra) ltac:(lra)) as D2. pose proof (F (a + h + h) (a + h + h + h) ltac:(lra) ltac:(lra)) as D3.
    replace (a + h - a) with h in * by ring. replace (a + h + h - (a + h)) with h in * by ring. replace (a + h + h + h - (a + h + h)) with h in * by ring.
    assert (0 <= h * (f a - f (a + h))) by (apply Rmult_le_pos; lra). assert (0 <= h * (f (a + h) - f (a + h + h))) by (apply Rmult_le_pos; lra).
    assert (0 <= h * (f (a + h + h) - f (a + h + h + h))) by (apply Rmult_le_pos; lra).
    apply Rabs_le. lra.
  - intros m IH a I F HI. rewrite simpson_step by lra. set (b := a + INR (S (S (S (S (S m)))) - 1) * h) in *.
    assert (b = a + h + h + INR (S (S (S m)) - 1) * h) as Eb.
    { unfold b. replace (S (S (S (S (S m)))) - 1)%nat with (S (S (S (S m)))) by lia. replace (S (S (S m)) - 1)%nat with (S (S m)) by lia. rewrite !S_INR. ring. }
    assert (a + h + h <= b) as Lb by (rewrite Eb; pose proof (pos_INR (S (S (S m)) - 1)); assert (0 <= INR (S (S (S m)) - 1) * h) by (apply Rmult_le_pos; lra); lra).
    destruct (split_integral f a (a + h + h) b I) as (J0 & K & HJ0 & HK & ->); [lra|assumption|].
    destruct (split_integral f a (a + h) (a + h + h) J0) as (J & J' & HJ & HJ' & ->); [lra|assumption|].
    pose proof (is_RInt_bounds f a (a + h) J (f (a + h)) (f a) ltac:(lra) HJ) as B1.
    pose proof (is_RInt_bounds f (a + h) (a + h + h) J' (f (a + h + h)) (f (a + h)) ltac:(lra) HJ') as B2.
    destruct B1 as [B1 B1']; [intros x Hx; split; apply F; lra|]. destruct B2 as [B2 B2']; [intros x Hx; split; apply F; lra|].
    pose proof (F a (a + h) ltac:(lra) ltac:(lra)) as D1. pose proof (F (a + h) (a + h + h) ltac:(lra) ltac:(lra)) as D2.
    replace (a + h - a) with h in * by ring. replace (a + h + h - (a + h)) with h in * by ring.
    assert (0 <= h * (f a - f (a + h))) by (apply Rmult_le_pos; lra). assert (0 <= h * (f (a + h) - f (a + h + h))) by (apply Rmult_le_pos; lra).
    specialize (IH (a + h + h) K). rewrite <- Eb in IH. assert (forall x y, a + h + h <= x <= y -> y <= b -> f y <= f x) as F' by (intros; apply F; lra).
    specialize (IH F' HK). apply Rabs_le_between in IH. apply Rabs_le. lra.
Qed.
