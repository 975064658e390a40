(** Existence and uniqueness of the maximum likelihood estimate of a location-scale family. *)
From Coquelicot Require Import Coquelicot.
From Coq Require Import List Arith Reals Lra Lia Bool.
From Verif Require Import Base RealFacts Gauss Improper Ext RList.
Import ListNotations.
Open Scope R_scope.

(** ** A continuous function of two variables attains its maximum on a rectangle *)
Section Max2.
  Variables (L : R -> R -> R) (p0 p1 q0 q1 B : R).
  Hypotheses (Hp : p0 <= p1) (Hq : q0 <= q1).
  Hypothesis HB : forall p q, p0 <= p <= p1 -> q0 <= q <= q1 -> L p q <= B.
  Hypothesis HC : forall p q, p0 <= p <= p1 -> q0 <= q <= q1 -> continuity_2d_pt L p q.

  Let V := fun v => exists p q, p0 <= p <= p1 /\ q0 <= q <= q1 /\ v = L p q.
  Let Sup := real (Lub_Rbar V).
  Let near u v := fun d => 0 < d <= 1 /\ forall p q, p0 <= p <= p1 -> q0 <= q <= q1 -> Rabs (p - u) < d -> Rabs (q - v) < d -> L p q <= Sup - d.
  Let rad u v := real (Lub_Rbar (near u v)) / 2.

  Lemma max2_sup : (forall p q, p0 <= p <= p1 -> q0 <= q <= q1 -> L p q <= Sup) /\ (forall b, (forall p q, p0 <= p <= p1 -> q0 <= q <= q1 -> L p q <= b) -> Sup <= b).
  Proof.
    destruct (lub_real_spec V B) as [H1 H2].
    - exists (L p0 q0), p0, q0. repeat split; lra.
    - intros v (p & q & P & Q & ->). now apply HB.
    - split; [intros p q P Q; apply H1; now exists p, q|]. intros b Hb. apply H2. intros v (p & q & P & Q & ->). now apply Hb.
  Qed.

  Lemma max2 : exists p q, p0 <= p <= p1 /\ q0 <= q <= q1 /\ forall p' q', p0 <= p' <= p1 -> q0 <= q' <= q1 -> L p' q' <= L p q.
  Proof.
    destruct max2_sup as [S1 S2].
    destruct (Classical_Prop.classic (exists p q, p0 <= p <= p1 /\ q0 <= q <= q1 /\ L p q = Sup)) as [(p & q & P & Q & E)|N].
    { exists p, q. split; [exact P|]. split; [exact Q|]. intros p' q' P' Q'. rewrite E. now apply S1. }
    exfalso.
    assert (forall u v, p0 <= u <= p1 -> q0 <= v <= q1 -> near u v (rad u v)) as HN.
    { intros u v Pu Qv. assert (L u v < Sup) as Lt.
      { destruct (S1 u v Pu Qv) as [Q|Q]; [exact Q|]. exfalso. apply N. exists u, v. now repeat split. }
      set (e := (Sup - L u v) / 2). assert (0 < e) as He by (unfold e; lra).
      destruct (HC u v Pu Qv (mkposreal e He)) as [d Hd]. cbn [pos] in Hd.
      set (d' := Rmin (Rmin d e) 1). assert (0 < d') as Hd'.
      { unfold d'. destruct d as [d Pd]. cbn [pos]. unfold Rmin. repeat destruct Rle_dec; lra. }
      assert (d' <= d /\ d' <= e /\ d' <= 1) as (D1 & D2 & D3).
      { unfold d'. pose proof (Rmin_l (Rmin d e) 1). pose proof (Rmin_r (Rmin d e) 1). pose proof (Rmin_l d e). pose proof (Rmin_r d e). lra. }
      assert (near u v d') as Hn.
      { split; [lra|]. intros p q P Q A B'. specialize (Hd p q ltac:(lra) ltac:(lra)). apply Rabs_def2 in Hd. unfold e in *. lra. }
      destruct (lub_real_spec (near u v) 1) as [H1 H2]; [now exists d'|intros x [Hx _]; lra|].
      pose proof (H1 d' Hn) as G. unfold rad. set (l := real (Lub_Rbar (near u v))) in *. clearbody l.
      assert (exists x, near u v x /\ l / 2 < x) as (x & (X1 & X2) & X3).
      { destruct (Classical_Prop.classic (exists x, near u v x /\ l / 2 < x)) as [Y|Y]; [exact Y|]. exfalso. assert (l <= l / 2); [|lra]. apply H2.
        intros x Hx. apply Rnot_lt_le. intros Hl. apply Y. now exists x. }
      split; [lra|]. intros p q P Q A B'. assert (L p q <= Sup - x) by (apply X2; lra). lra. }
    pose (delta := fun u v => match Rlt_dec 0 (rad u v) with left h => mkposreal (rad u v) h | right _ => mkposreal 1 Rlt_0_1 end).
    assert (forall u v, p0 <= u <= p1 -> q0 <= v <= q1 -> pos (delta u v) = rad u v) as HD.
    { intros u v Pu Qv. destruct (HN u v Pu Qv) as [H _]. unfold delta. destruct Rlt_dec; [reflexivity|lra]. }
    destruct (compactness_value_2d p0 p1 q0 q1 delta) as [d Hd].
    assert (Sup <= Sup - d); [|pose proof (cond_pos d); lra].
    apply S2. intros p q P Q. specialize (Hd p q P Q). apply Rnot_lt_le. intros Hlt. apply Hd. intros (u & v & Pu & Qv & A & B' & C).
    rewrite (HD u v Pu Qv) in A, B', C. destruct (HN u v Pu Qv) as [_ H]. specialize (H p q P Q A B'). lra.
  Qed.
End Max2.

(** ** The log-likelihood of a location-scale family: failures F, censored items C, p = 1/scale, q = location/scale *)
Section LocScale.
  Variables lg lS : R -> R.
  Definition LSL (F C : list R) (p q : R) : R := rsum (map (fun y => ln p + lg (p * y - q)) F) + rsum (map (fun y => lS (p * y - q)) C).

  Hypothesis lg_strict : forall x y, x <> y -> (lg x + lg y) / 2 < lg ((x + y) / 2).
  Hypothesis lS_concave : forall x y, (lS x + lS y) / 2 <= lS ((x + y) / 2).
  Hypothesis lg_cont : forall x, continuity_pt lg x.
  Hypothesis lS_cont : forall x, continuity_pt lS x.
  Hypothesis lS_neg : forall x, lS x <= 0.
  Variable K : R.
  Hypothesis lg_tail : forall x, lg x <= K - Rabs x.

  Lemma lg_mid x y : (lg x + lg y) / 2 <= lg ((x + y) / 2).
  Proof. destruct (Req_dec x y) as [->|N]; [replace ((y + y) / 2) with y by field; lra|left; now apply lg_strict]. Qed.
  Lemma ln_mid x y : 0 < x -> 0 < y -> (ln x + ln y) / 2 <= ln ((x + y) / 2) /\ (x <> y -> (ln x + ln y) / 2 < ln ((x + y) / 2)).
  Proof.
    intros Hx Hy. assert (ln x + ln y = ln (x * y)) as E by (rewrite ln_mult; lra). assert (2 * ln ((x + y) / 2) = ln (((x + y) / 2) * ((x + y) / 2))) as E' by (rewrite ln_mult by lra; ring).
    assert (0 < x * y) by now apply Rmult_lt_0_compat.
    assert (((x + y) / 2) * ((x + y) / 2) - x * y = ((x - y) / 2) * ((x - y) / 2)) as D by field. pose proof (Rle_0_sqr ((x - y) / 2)) as Q. unfold Rsqr in Q. split.
    - assert (ln (x * y) <= ln ((x + y) / 2 * ((x + y) / 2))); [|lra]. destruct (Req_dec (x * y) ((x + y) / 2 * ((x + y) / 2))) as [->|N]; [lra|left; apply ln_increasing; lra].
    - intros N. assert (0 < ((x - y) / 2) * ((x - y) / 2)) by (apply Rsqr_pos_lt; lra). assert (ln (x * y) < ln ((x + y) / 2 * ((x + y) / 2))); [apply ln_increasing; lra|lra].
  Qed.

  Lemma rsum_mid {A} (f g h : A -> R) l : (forall y, In y l -> (f y + g y) / 2 <= h y) -> (rsum (map f l) + rsum (map g l)) / 2 <= rsum (map h l).
  Proof.
    induction l as [|a l IH]; intros H; [cbn; lra|]. cbn [map]. rewrite !rsum_cons. specialize (IH (fun y Hy => H y (or_intror Hy))). specialize (H a (or_introl eq_refl)). lra.
  Qed.
  Lemma rsum_mid_strict {A} (f g h : A -> R) l : l <> [] -> (forall y, In y l -> (f y + g y) / 2 < h y) -> (rsum (map f l) + rsum (map g l)) / 2 < rsum (map h l).
  Proof.
    destruct l as [|a l]; [congruence|]. intros _ H. cbn [map]. rewrite !rsum_cons.
    pose proof (rsum_mid f g h l (fun y Hy => Rlt_le _ _ (H y (or_intror Hy)))). specialize (H a (or_introl eq_refl)). lra.
  Qed.

  Lemma LSL_strict F C p q p' q' : F <> [] -> 0 < p -> 0 < p' -> (p, q) <> (p', q') ->
    (LSL F C p q + LSL F C p' q') / 2 < LSL F C ((p + p') / 2) ((q + q') / 2).
  Proof.
    intros HF Hp Hp' N. unfold LSL.
    assert (forall y, (p + p') / 2 * y - (q + q') / 2 = (p * y - q + (p' * y - q')) / 2) as E by (intros; field).
    assert ((rsum (map (fun y => lS (p * y - q)) C) + rsum (map (fun y => lS (p' * y - q')) C)) / 2 <= rsum (map (fun y => lS ((p + p') / 2 * y - (q + q') / 2)) C)) as H1.
    { apply rsum_mid. intros y _. rewrite E. apply lS_concave. }
    destruct (ln_mid p p' Hp Hp') as [M1 M2].
    assert ((rsum (map (fun y => ln p + lg (p * y - q)) F) + rsum (map (fun y => ln p' + lg (p' * y - q')) F)) / 2
      < rsum (map (fun y => ln ((p + p') / 2) + lg ((p + p') / 2 * y - (q + q') / 2)) F)) as H2; [|lra].
    apply rsum_mid_strict; [exact HF|]. intros y _. rewrite E. destruct (Req_dec p p') as [Ep|Np].
    - pose proof (lg_strict (p * y - q) (p' * y - q')) as G. assert (q <> q') by (intros ->; apply N; now rewrite Ep). specialize (G ltac:(rewrite Ep; lra)). lra.
    - specialize (M2 Np). pose proof (lg_mid (p * y - q) (p' * y - q')). lra.
  Qed.

  Lemma LSL_unique F C p q p' q' : F <> [] -> 0 < p -> 0 < p' ->
    (forall x y, 0 < x -> LSL F C x y <= LSL F C p q) -> (forall x y, 0 < x -> LSL F C x y <= LSL F C p' q') -> p = p' /\ q = q'.
  Proof.
    intros HF Hp Hp' H H'. destruct (Req_dec p p') as [E1|N1]; [destruct (Req_dec q q') as [E2|N2]; [now split|]|]; exfalso.
    - pose proof (LSL_strict F C p q p' q' HF Hp Hp' ltac:(congruence)). pose proof (H ((p + p') / 2) ((q + q') / 2) ltac:(lra)). pose proof (H' ((p + p') / 2) ((q + q') / 2) ltac:(lra)). lra.
    - pose proof (LSL_strict F C p q p' q' HF Hp Hp' ltac:(congruence)). pose proof (H ((p + p') / 2) ((q + q') / 2) ltac:(lra)). pose proof (H' ((p + p') / 2) ((q + q') / 2) ltac:(lra)). lra.
  Qed.

  (** Continuity *)
  Lemma cont_sum {A} (f : A -> R -> R -> R) l x y : (forall a, In a l -> continuity_2d_pt (f a) x y) -> continuity_2d_pt (fun u v => rsum (map (fun a => f a u v) l)) x y.
  Proof.
    induction l as [|a l IH]; intros H; [apply (continuity_2d_pt_const x y 0)|].
    apply (continuity_2d_pt_ext (fun u v => f a u v + rsum (map (fun a => f a u v) l))); [intros; cbn [map]; now rewrite rsum_cons|].
    apply continuity_2d_pt_plus; [apply H; now left|apply IH; intros; apply H; now right].
  Qed.
  Lemma cont_z y p q : continuity_2d_pt (fun u v => u * y - v) p q.
  Proof. apply continuity_2d_pt_minus; [apply continuity_2d_pt_mult; [apply continuity_2d_pt_id1|apply continuity_2d_pt_const]|apply continuity_2d_pt_id2]. Qed.
  Lemma LSL_cont F C p q : 0 < p -> continuity_2d_pt (LSL F C) p q.
  Proof.
    intros Hp. unfold LSL. apply continuity_2d_pt_plus.
    - apply (cont_sum (fun y u v => ln u + lg (u * y - v))). intros y _. apply continuity_2d_pt_plus.
      + apply (continuity_1d_2d_pt_comp ln (fun u _ => u)); [|apply continuity_2d_pt_id1]. apply derivable_continuous_pt. exists (/ p). now apply derivable_pt_lim_ln.
      + apply (continuity_1d_2d_pt_comp lg (fun u v => u * y - v)); [apply lg_cont|apply cont_z].
    - apply (cont_sum (fun y u v => lS (u * y - v))). intros y _. apply (continuity_1d_2d_pt_comp lS (fun u v => u * y - v)); [apply lS_cont|apply cont_z].
  Qed.

  (** Growth *)
  Lemma rsum_one (h : R -> R) l a : In a l -> (forall y, h y <= 0) -> rsum (map h l) <= h a.
  Proof.
    intros Ha Hh. assert (forall l, rsum (map h l) <= 0) as Z.
    { induction l0 as [|x l0 IH]; [cbn; lra|]. cbn [map]. rewrite rsum_cons. specialize (Hh x). lra. }
    induction l as [|x l IH]; [destruct Ha|]. cbn [map]. rewrite rsum_cons. destruct Ha as [<-|Ha]; [specialize (Z l); lra|specialize (IH Ha); specialize (Hh x); lra].
  Qed.
  Lemma rsum_two (h : R -> R) l a b : In a l -> In b l -> a <> b -> (forall y, h y <= 0) -> rsum (map h l) <= h a + h b.
  Proof.
    intros Ha Hb N Hh. induction l as [|x l IH]; [destruct Ha|]. cbn [map]. rewrite rsum_cons. destruct Ha as [<-|Ha], Hb as [<-|Hb].
    - congruence.
    - pose proof (rsum_one h l b Hb Hh). lra.
    - pose proof (rsum_one h l a Ha Hh). lra.
    - specialize (IH Ha Hb). specialize (Hh x). lra.
  Qed.
  Lemma rsum_const_plus (c : R) (h : R -> R) l : rsum (map (fun y => c + h y) l) = INR (length l) * c + rsum (map h l).
  Proof. induction l as [|x l IH]; [cbn; ring|]. cbn [map length]. rewrite !rsum_cons, IH, S_INR. ring. Qed.
  Lemma rsum_nonpos (h : R -> R) l : (forall y, h y <= 0) -> rsum (map h l) <= 0.
  Proof. intros Hh. induction l as [|x l IH]; [cbn; lra|]. cbn [map]. rewrite rsum_cons. specialize (Hh x). lra. Qed.
  Lemma LSL_growth F C a b p q : In a F -> In b F -> a <> b ->
    LSL F C p q <= INR (length F) * (ln p + K) - Rabs (p * a - q) - Rabs (p * b - q).
  Proof.
    intros Ha Hb N. unfold LSL.
    assert (forall y, ln p + lg (p * y - q) = (ln p + K) + (lg (p * y - q) - K)) as E by (intros; ring).
    rewrite (map_ext _ _ E), (rsum_const_plus (ln p + K) (fun y => lg (p * y - q) - K)).
    pose proof (rsum_two (fun y => lg (p * y - q) - K) F a b Ha Hb N) as G.
    pose proof (rsum_nonpos (fun y => lS (p * y - q)) C (fun y => lS_neg _)).
    assert (rsum (map (fun y => lg (p * y - q) - K) F) <= lg (p * a - q) - K + (lg (p * b - q) - K)).
    { apply G. intros y. pose proof (lg_tail (p * y - q)). pose proof (Rabs_pos (p * y - q)). lra. }
    pose proof (lg_tail (p * a - q)). pose proof (lg_tail (p * b - q)). lra.
  Qed.

  Lemma LSL_max F C a b : In a F -> In b F -> a <> b -> exists p q, 0 < p /\ forall p' q', 0 < p' -> LSL F C p' q' <= LSL F C p q.
  Proof.
    intros Ha Hb N. set (r := INR (length F)). assert (1 <= r) as Hr.
    { unfold r. destruct F as [|x F]; [destruct Ha|]. cbn [length]. rewrite S_INR. pose proof (pos_INR (length F)). lra. }
    set (D := Rabs (a - b)). assert (0 < D) as HD by (apply Rabs_pos_lt; lra).
    set (ref := LSL F C 1 0).
    (* r ln p <= D p / 2 + k0 *)
    set (k0 := r * (ln (2 * r / D) - 1)).
    assert (0 < 2 * r / D) as H2r by (apply Rdiv_lt_0_compat; lra).
    assert (forall p, 0 < p -> r * ln p <= D * p / 2 + k0) as Hln.
    { intros p Hp. assert (ln (p / (2 * r / D)) <= p / (2 * r / D) - 1) as Q by (apply ln_le_minus_1; now apply Rdiv_lt_0_compat).
      unfold Rdiv in Q at 1. rewrite ln_mult, ln_Rinv in Q by (try apply Rinv_0_lt_compat; lra).
      apply Rmult_le_compat_l with (r := r) in Q; [|lra]. unfold k0.
      replace (r * (p / (2 * r / D) - 1)) with (D * p / 2 - r) in Q by (field; lra). lra. }
    assert (forall p q, 0 < p -> LSL F C p q <= r * (ln p + K) - D * p) as G1.
    { intros p q Hp. pose proof (LSL_growth F C a b p q Ha Hb N) as G. fold r in G.
      assert (D * p <= Rabs (p * a - q) + Rabs (p * b - q)); [|lra]. unfold D.
      pose proof (Rabs_triang (p * a - q) (- (p * b - q))) as T. rewrite Rabs_Ropp in T. replace (p * a - q + - (p * b - q)) with (p * (a - b)) in T by ring.
      rewrite Rabs_mult, (Rabs_pos_eq p) in T by lra. lra. }
    set (P1 := Rmax 1 (2 * (k0 + r * K - ref + 1) / D)).
    assert (forall p q, P1 < p -> LSL F C p q < ref) as B1.
    { intros p q Hp. assert (1 < p) by (pose proof (Rmax_l 1 (2 * (k0 + r * K - ref + 1) / D)); unfold P1 in Hp; lra).
      assert (2 * (k0 + r * K - ref + 1) / D < p) as Q by (pose proof (Rmax_r 1 (2 * (k0 + r * K - ref + 1) / D)); unfold P1 in Hp; lra).
      pose proof (G1 p q ltac:(lra)) as A1. pose proof (Hln p ltac:(lra)) as A2.
      apply Rmult_lt_compat_r with (r := D) in Q; [|lra]. replace (2 * (k0 + r * K - ref + 1) / D * D) with (2 * (k0 + r * K - ref + 1)) in Q by (field; lra). lra. }
    set (P0 := Rmin 1 (exp ((ref - 1) / r - K))). assert (0 < P0) as HP0 by (unfold P0, Rmin; destruct Rle_dec; [lra|apply exp_pos]).
    assert (forall p q, 0 < p < P0 -> LSL F C p q < ref) as B0.
    { intros p q [Hp Hp']. assert (p < exp ((ref - 1) / r - K)) as Q by (pose proof (Rmin_r 1 (exp ((ref - 1) / r - K))); unfold P0 in Hp'; lra).
      apply ln_increasing in Q; [|exact Hp]. rewrite ln_exp in Q. pose proof (G1 p q Hp) as A1. pose proof (Rmult_lt_0_compat D p HD Hp).
      assert (r * (ln p + K) < r * ((ref - 1) / r)) as A2 by (apply Rmult_lt_compat_l; lra). replace (r * ((ref - 1) / r)) with (ref - 1) in A2 by (field; lra). lra. }
    set (top := D * P1 / 2 + k0 + r * K).
    assert (P0 <= 1 <= P1) as [HP01 HP1] by (split; [apply Rmin_l|apply Rmax_l]).
    assert (forall p q, P0 <= p <= P1 -> LSL F C p q <= top - Rabs (p * a - q)) as G2.
    { intros p q [Hl Hu]. pose proof (LSL_growth F C a b p q Ha Hb N) as G. fold r in G. pose proof (Hln p ltac:(lra)). pose proof (Rabs_pos (p * b - q)).
      assert (D * p <= D * P1) by (apply Rmult_le_compat_l; lra). unfold top. lra. }
    set (Q1 := P1 * Rabs a + Rabs (top - ref) + 1). assert (0 < Q1) as HQ1.
    { unfold Q1. pose proof (Rabs_pos a). pose proof (Rabs_pos (top - ref)). pose proof (Rmult_le_pos P1 (Rabs a) ltac:(lra) ltac:(lra)). lra. }
    assert (forall p q, P0 <= p <= P1 -> Q1 < Rabs q -> LSL F C p q < ref) as B2.
    { intros p q Hp Hq. pose proof (G2 p q Hp) as G. pose proof (Rabs_triang (p * a - q) (- (p * a))) as T. rewrite Rabs_Ropp in T. replace (p * a - q + - (p * a)) with (- q) in T by ring.
      rewrite Rabs_Ropp, Rabs_mult, (Rabs_pos_eq p) in T by lra. assert (p * Rabs a <= P1 * Rabs a) by (apply Rmult_le_compat_r; [apply Rabs_pos|lra]).
      pose proof (Rle_abs (top - ref)). unfold Q1 in Hq. lra. }
    destruct (max2 (LSL F C) P0 P1 (- Q1) Q1 top) as (p & q & Hp & Hq & Hmax); [lra|lra| | |].
    - intros p q Hp Hq. pose proof (G2 p q Hp). pose proof (Rabs_pos (p * a - q)). lra.
    - intros p q Hp Hq. apply LSL_cont. lra.
    - exists p, q. split; [lra|]. intros p' q' Hp'.
      assert (ref <= LSL F C p q) as Href by (apply Hmax; lra).
      destruct (Rlt_le_dec p' P0) as [X|X]; [pose proof (B0 p' q' (conj Hp' X)); lra|].
      destruct (Rlt_le_dec P1 p') as [Y|Y]; [pose proof (B1 p' q' Y); lra|].
      destruct (Rlt_le_dec Q1 (Rabs q')) as [Z|Z]; [pose proof (B2 p' q' (conj X Y) Z); lra|].
      apply Hmax; [lra|]. apply Rabs_le_between. exact Z.
  Qed.

  Theorem LSL_best F C a b : In a F -> In b F -> a <> b -> exists p q, 0 < p /\ (forall p' q', 0 < p' -> LSL F C p' q' <= LSL F C p q) /\
    forall p' q', 0 < p' -> (forall x y, 0 < x -> LSL F C x y <= LSL F C p' q') -> p' = p /\ q' = q.
  Proof.
    intros Ha Hb N. destruct (LSL_max F C a b Ha Hb N) as (p & q & Hp & H). exists p, q. split; [exact Hp|]. split; [exact H|].
    intros p' q' Hp' H'. apply (LSL_unique F C); try assumption. intros ->. destruct Ha.
  Qed.
End LocScale.
