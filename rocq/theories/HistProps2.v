(** Property C166, continued: what the returned values are. *)
From Coquelicot Require Import Coquelicot.
From Coq Require Import List Arith Reals Lra Lia Bool Sorted.
From Verif Require Import Base RealFacts Ext RList DistModel DistSpec CombModel CombSpec CombProofs CombProps HistModel HistSpec HistProps.
Import ListNotations.
Open Scope R_scope.

Lemma numbers_map X : numbers (map Fin X) = Some X.
Proof. induction X as [|x X IH]; [reflexivity|]. cbn. now rewrite IH. Qed.
Lemma nth_Fin l i : (i < length l)%nat -> nth i (map Fin l) NaN = Fin (nth i l 0).
Proof. intros H. rewrite (nth_indep _ NaN (Fin 0)) by now rewrite map_length. apply map_nth. Qed.
(** The value, or 10^100 in its place in a plot. *)
Definition maybe_capped (show : bool) (v u : ext) : Prop := u = v \/ (show = true /\ u = cap v).

Lemma seen other m default f a show w v : (a < length (w_heap w))%nat -> evaluate other m (contents (w_heap w) a) = Ok v ->
  let '(w', r) := call other m default f (Some a) show w in exists l, sees (w_heap w') r = Ok l /\ length l = length (values_of f v) /\
  (f = CDF_ \/ f = SF_ \/ f = CHF_ -> l = values_of f v) /\ forall i, (i < length l)%nat -> maybe_capped show (nth i (values_of f v) NaN) (nth i l NaN).
Proof.
  intros H E. pose proof (C166_value other m default f (Some a) show w) as K. destruct (call other m default f (Some a) show w) as [w' r].
  rewrite K by (intros b B; injection B as <-; exact H). cbn [given]. rewrite E. clear K.
  assert (forall u, nth u (map cap (values_of f v)) NaN = cap (nth u (values_of f v) NaN)) as C by (intros u; change NaN with (cap NaN) at 1; apply map_nth).
  destruct (show && negb (length (contents (w_heap w) a) <? 2)%nat) eqn:S.
  - apply andb_true_iff in S. destruct S as [-> _]. destruct f; (eexists; split; [reflexivity|]); rewrite ?map_length;
      (split; [reflexivity|]); (split; [try reflexivity; intros [D|[D|D]]; discriminate D|]); intros i Hi; first [left; reflexivity|right; split; [reflexivity|apply C]].
  - exists (values_of f v). split; [destruct f; reflexivity|]. split; [reflexivity|]. split; [reflexivity|]. intros i _. now left.
Qed.

(** Competing risks: in any state of memory, after any history. *)
Theorem C166_competing_risks other ds default f a show w X : Forall valid ds -> StronglySorted Rle X ->
  (a < length (w_heap w))%nat -> contents (w_heap w) a = map Fin X -> 
  let '(w', r) := call other (Competing_Risks ds) default f (Some a) show w in
  forall l, sees (w_heap w') r = Ok l -> forall i, (i < length X)%nat -> let x := nth i X 0 in let S := rprod (map (fun d => sf d x) ds) in
  (f = SF_ -> nth i l NaN = Fin S) /\ (f = CDF_ -> nth i l NaN = Fin (1 - S)) /\
  forall p, (forall d, In d ds -> hazard_defined d x /\ pdf d x = Fin (p d)) ->
    (f = CHF_ -> nth i l NaN = Fin (- ln S)) /\
    (f = HF_ -> maybe_capped show (Fin (rsum (map (fun d => p d / sf d x) ds))) (nth i l NaN)) /\
    (f = PDF_ -> maybe_capped show (Fin (rsum (map (fun d => p d / sf d x) ds) * S)) (nth i l NaN)).
Proof.
  intros V HS Ha Hc. destruct (cr_combine ds X) as [o|e] eqn:E.
  - assert (evaluate other (Competing_Risks ds) (contents (w_heap w) a) = Ok {| v_pdf := map Fin (cr_pdf o); v_cdf := map Fin (cr_cdf o); v_sf := map Fin (cr_sf o); v_hf := cr_hf o; v_chf := cr_chf o |}) as EV
      by (unfold evaluate; rewrite Hc, numbers_map, E; reflexivity).
    pose proof (seen other (Competing_Risks ds) default f a show w _ Ha EV) as K. destruct (call other (Competing_Risks ds) default f (Some a) show w) as [w' r].
    destruct K as (l0 & K1 & K2 & K3 & K4). intros l Hl i Hi x S. assert (l = l0) as -> by congruence. clear Hl.
    destruct (C53_competing_risks_partial ds X o V HS E) as (L1 & L2 & L3 & C). destruct (C i Hi) as (C1 & C2 & _ & C3). fold x in C1, C2, C3. fold S in C1.
    assert (length (cr_cdf o) = length X) as L4.
    { revert E L1. unfold cr_combine. destruct (comb_check ds X); [|discriminate]. cbn [bind]. destruct (accumulate Rmult _ _ _); [|discriminate]. cbn [bind].
      destruct (accumulate eadd _ _ _); [|discriminate]. cbn [bind]. intros E. injection E as <-. cbn. now rewrite map_length. }
    split; [intros ->; rewrite K3 by auto; cbn [values_of v_sf]; rewrite nth_Fin by lia; now rewrite C1|].
    split; [intros ->; rewrite K3 by auto; cbn [values_of v_cdf]; rewrite nth_Fin by lia; now rewrite C2, C1|].
    intros p Hp. destruct (C3 p Hp) as (C4 & C5 & C6). rewrite C1 in C5, C6.
    split; [intros ->; rewrite K3 by auto; exact C6|]. split.
    + intros ->. rewrite <- C4. cbn [values_of v_hf] in *. apply K4. lia.
    + intros ->. rewrite <- C5. cbn [values_of v_pdf] in *. rewrite map_length in K2. rewrite <- nth_Fin by lia. apply K4. lia.
  - pose proof (C166_value other (Competing_Risks ds) default f (Some a) show w) as K. destruct (call other (Competing_Risks ds) default f (Some a) show w) as [w' r].
    intros l Hl. rewrite K in Hl by (intros b B; injection B as <-; exact Ha). cbn [given] in Hl. unfold evaluate in Hl. rewrite Hc, numbers_map, E in Hl. discriminate Hl.
Qed.
Print Assumptions C166_competing_risks.

(** Mixtures. *)
Theorem C166_mixture other ds ps default f a show w X : Forall valid ds -> mix_proportions ds (Some ps) = Ok ps -> StronglySorted Rle X ->
  (a < length (w_heap w))%nat -> contents (w_heap w) a = map Fin X ->
  let '(w', r) := call other (Mixture ds ps) default f (Some a) show w in
  forall l, sees (w_heap w') r = Ok l -> forall i, (i < length X)%nat -> let x := nth i X 0 in let F := dot ps (map (fun d => cdf d x) ds) in
  (f = CDF_ -> nth i l NaN = Fin F) /\ (f = SF_ -> nth i l NaN = Fin (1 - F)) /\
  forall p, (forall d, In d ds -> pdf d x = Fin (p d)) -> (f = PDF_ -> maybe_capped show (Fin (dot ps (map p ds))) (nth i l NaN)) /\
    (F < 1 -> (f = HF_ -> maybe_capped show (Fin (dot ps (map p ds) / (1 - F))) (nth i l NaN)) /\ (f = CHF_ -> nth i l NaN = Fin (- ln (1 - F)))).
Proof.
  intros V HP HS Ha Hc. destruct (mix_combine ds ps X) as [o|e] eqn:E.
  - assert (evaluate other (Mixture ds ps) (contents (w_heap w) a) = Ok {| v_pdf := mix_pdf o; v_cdf := map Fin (mix_cdf o); v_sf := map Fin (mix_sf o); v_hf := mix_hf o; v_chf := mix_chf o |}) as EV
      by (unfold evaluate; rewrite Hc, numbers_map, E; reflexivity).
    pose proof (seen other (Mixture ds ps) default f a show w _ Ha EV) as K. destruct (call other (Mixture ds ps) default f (Some a) show w) as [w' r].
    destruct K as (l0 & K1 & K2 & K3 & K4). intros l Hl i Hi x F. assert (l = l0) as -> by congruence. clear Hl.
    destruct (C54_mixture_partial ds ps X o V HS HP E) as (L1 & L2 & C). destruct (C i Hi) as (C1 & C2 & C3 & _). fold x in C1, C2, C3. fold F in C1.
    assert (length (mix_sf o) = length X /\ length (mix_hf o) = length X) as [L4 L5].
    { revert E L1 L2. unfold mix_combine. destruct (comb_check ds X); [|discriminate]. cbn [bind]. destruct (accumulate_weighted Rplus _ _ _ _ _) as [c|]; [|discriminate]. cbn [bind].
      destruct (accumulate_weighted eadd _ _ _ _ _) as [q|]; [|discriminate]. cbn [bind]. intros E. injection E as <-. cbn. rewrite map_length. intros A B. split; [exact A|]. rewrite <- A in B |- *.
      clear -B. revert c B. induction q as [|z q IH]; intros [|y c] B; cbn in *; try lia. f_equal. apply IH. lia. }
    split; [intros ->; rewrite K3 by auto; cbn [values_of v_cdf]; rewrite nth_Fin by lia; now rewrite C1|].
    split; [intros ->; rewrite K3 by auto; cbn [values_of v_sf]; rewrite nth_Fin by lia; now rewrite C2, C1|].
    intros p Hp. destruct (C3 p Hp) as (C4 & C5). rewrite C2, C1 in C5.
    split; [intros ->; rewrite <- C4; cbn [values_of v_pdf] in *; apply K4; lia|].
    intros HF1. destruct (C5 ltac:(lra)) as [C6 C7]. split; [intros ->; rewrite <- C6; cbn [values_of v_hf] in *; apply K4; lia|intros ->; rewrite K3 by auto; exact C7].
  - pose proof (C166_value other (Mixture ds ps) default f (Some a) show w) as K. destruct (call other (Mixture ds ps) default f (Some a) show w) as [w' r].
    intros l Hl. rewrite K in Hl by (intros b B; injection B as <-; exact Ha). cbn [given] in Hl. unfold evaluate in Hl. rewrite Hc, numbers_map, E in Hl. discriminate Hl.
Qed.
Print Assumptions C166_mixture.
Example C166_competing_risks_case : Forall valid [Exponential 1 0; Weibull 1 2 0] /\ StronglySorted Rle [1; 2] /\
  mix_proportions [Exponential 1 0; Weibull 1 2 0] (Some [1 / 2; 1 / 2]) = Ok [1 / 2; 1 / 2].
Proof.
  split; [repeat constructor; cbn; lra|]. split; [repeat constructor; lra|]. unfold mix_proportions. destruct (Req_EM_T _ 1) as [E|E]; [reflexivity|]. exfalso. apply E. unfold rsum. cbn. lra.
Qed.
