(** The density is continuous inside the support, so it integrates to the differences of the CDF. *)
From Coquelicot Require Import Coquelicot.
From Coq Require Import List Arith Reals Lra Lia Bool.
From Verif Require Import Base RealFacts Gauss Improper Ext DistModel DistSpec DistIntegrals DistProofs DistProofs2.
Import ListNotations.
Open Scope R_scope.

Lemma cont_loc (f h : R -> R) (x : R) : locally x (fun t => h t = f t) -> ex_derive h x -> continuous f x.
Proof. intros L D. apply (continuous_ext_loc f h x L). now apply (ex_derive_continuous h). Qed.

Lemma right_of (g x : R) (P : R -> Prop) : g < x -> (forall t, g < t -> P t) -> locally x P.
Proof. intros L H. apply (filter_imp (fun t => g < t)); [exact H|]. exact (open_gt g x L). Qed.

Ltac cases_pos y := destruct (Rlt_dec y 0); [lra|]; destruct (Req_EM_T y 0); [lra|].

Lemma pdf_cont d x : valid d -> inside d x -> continuous (pdf_real d) x.
Proof.
  intros Hv Hi. destruct d as [a b g|m s|m s g|l g|a b g|a b|a b g|m s].
  - simpl in Hv. assert (g < x) as L by exact (proj1 Hi).
    apply (cont_loc _ (fun x => b * Rpower ((x - g) / a) (b - 1) * exp (- Rpower ((x - g) / a) b) / a)).
    + apply (right_of g x); [exact L|]. intros t Ht. unfold pdf_real. simpl. pose proof (scaled_pos t g a ltac:(lra) Ht). cases_pos ((t - g) / a). reflexivity.
    + pose proof (scaled_pos x g a ltac:(lra) L). unfold Rpower. auto_derive. repeat split; try exact H; try lra.
  - simpl in Hv. apply (cont_loc _ (fun x => phi ((x - m) / s) / s)); [apply filter_forall; reflexivity|].
    unfold phi. auto_derive. repeat split; try lra; try (apply Rgt_not_eq, sqrt_2PI_pos).
  - simpl in Hv. assert (g < x) as L by exact (proj1 Hi). pose proof (exp_pos m) as Em.
    apply (cont_loc _ (fun x => phi (ln ((x - g) / exp m) / s) / (s * ((x - g) / exp m)) / exp m)).
    + apply (right_of g x); [exact L|]. intros t Ht. unfold pdf_real. simpl. pose proof (scaled_pos t g (exp m) Em Ht). destruct (Rle_dec ((t - g) / exp m) 0); [lra|reflexivity].
    + pose proof (scaled_pos x g (exp m) Em L). unfold phi. auto_derive. repeat split; try exact H; try lra; try (apply Rgt_not_eq, sqrt_2PI_pos).
      apply Rmult_integral_contrapositive_currified; [lra|]. unfold Rdiv in H. unfold Rminus in *. lra.
  - simpl in Hv. assert (g < x) as L by exact (proj1 Hi).
    apply (cont_loc _ (fun x => exp (- ((x - g) / (1 / l))) / (1 / l))).
    + apply (right_of g x); [exact L|]. intros t Ht. unfold pdf_real. simpl. assert (0 < 1 / l) as Hl by (apply Rdiv_lt_0_compat; lra).
      pose proof (scaled_pos t g (1 / l) Hl Ht). destruct (Rlt_dec ((t - g) / (1 / l)) 0); [lra|reflexivity].
    + auto_derive. exact I.
  - simpl in Hv. assert (g < x) as L by exact (proj1 Hi).
    apply (cont_loc _ (fun x => Rpower ((x - g) / a) (b - 1) * exp (- ((x - g) / a)) / gamma_fun b / a)).
    + apply (right_of g x); [exact L|]. intros t Ht. unfold pdf_real. simpl. pose proof (scaled_pos t g a ltac:(lra) Ht). cases_pos ((t - g) / a). reflexivity.
    + pose proof (scaled_pos x g a ltac:(lra) L). unfold Rpower. generalize (gamma_fun b). intros G. auto_derive. repeat split; try exact H; try lra.
  - simpl in Hv. destruct Hi as [L U]. simpl in L, U.
    apply (cont_loc _ (fun x => Rpower x (a - 1) * Rpower (1 - x) (b - 1) / beta_fun a b)).
    + apply (filter_imp (fun t => 0 < t /\ t < 1)).
      * intros t Ht. unfold pdf_real. simpl. destruct (Rlt_dec t 0); [lra|]. destruct (Rlt_dec 1 t); [lra|]. destruct (Req_EM_T t 0); [lra|]. destruct (Req_EM_T t 1); [lra|]. reflexivity.
      * apply filter_and; [exact (open_gt 0 x L)|exact (open_lt 1 x U)].
    + unfold Rpower. generalize (beta_fun a b). intros G. auto_derive. repeat split; lra.
  - simpl in Hv. assert (g < x) as L by exact (proj1 Hi).
    apply (cont_loc _ (fun x => b * Rpower ((x - g) / a) (b - 1) / (1 + Rpower ((x - g) / a) b) ^ 2 / a)).
    + apply (right_of g x); [exact L|]. intros t Ht. unfold pdf_real. simpl. pose proof (scaled_pos t g a ltac:(lra) Ht). cases_pos ((t - g) / a). reflexivity.
    + pose proof (scaled_pos x g a ltac:(lra) L). unfold Rpower. auto_derive. repeat split; try exact H; try lra.
      match goal with |- context [exp ?u] => pose proof (exp_pos u) end. apply Rmult_integral_contrapositive_currified; lra.
  - simpl in Hv. apply (cont_loc _ (fun x => exp ((x - m) / s - exp ((x - m) / s)) / s)); [apply filter_forall; reflexivity|].
    auto_derive. repeat split; lra.
Qed.

Lemma pdf_integrates d a b : valid d -> inside d a -> inside d b -> a <= b -> is_RInt (pdf_real d) a b (cdf d b - cdf d a).
Proof.
  intros Hv Ha Hb L. apply (is_RInt_derive (cdf d) (pdf_real d)); rewrite Rmin_left, Rmax_right by exact L; intros x Hx.
  - apply pdf_real_spec; [exact Hv|]. now apply (inside_between d a b).
  - apply pdf_cont; [exact Hv|]. now apply (inside_between d a b).
Qed.

(** Inside the support the CDF comes as close to 0 and 1 as wanted. *)
Lemma cdf_close d e : valid d -> 0 < e -> exists a b, inside d a /\ inside d b /\ a < b /\ cdf d a < e /\ 1 - e < cdf d b.
Proof.
  intros Hv He. set (q := Rmin (e / 2) (/ 4)).
  assert (0 < q /\ q < e /\ q <= / 4) as (Q1 & Q2 & Q3).
  { unfold q. split; [apply Rmin_glb_lt; lra|]. pose proof (Rmin_l (e / 2) (/ 4)). pose proof (Rmin_r (e / 2) (/ 4)). lra. }
  destruct (F_ppf d (all_facts d Hv) q) as [I1 E1]; [lra|]. destruct (F_ppf d (all_facts d Hv) (1 - q)) as [I2 E2]; [lra|].
  exists (ppf d q), (ppf d (1 - q)). split; [exact I1|]. split; [exact I2|]. split; [|lra].
  apply Rnot_le_lt. intros C. pose proof (cdf_incr d Hv _ _ C). lra.
Qed.
