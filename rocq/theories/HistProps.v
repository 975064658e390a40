(** Property C166: results of the methods of combined models do not depend on what was done before. *)
From Coquelicot Require Import Coquelicot.
From Coq Require Import List Arith Reals Lra Lia Bool.
From Verif Require Import Base RealFacts Ext DistModel CombModel HistModel HistSpec.
Import ListNotations.
Open Scope R_scope.

Lemma set_nth_length {A} i (v : A) l : length (set_nth i v l) = length l.
Proof. revert i. induction l as [|x l IH]; intros [|i]; cbn; auto. Qed.
Lemma set_nth_same {A} i (v d : A) l : (i < length l)%nat -> nth i (set_nth i v l) d = v.
Proof. revert i. induction l as [|x l IH]; intros [|i] H; cbn in *; try lia; auto. apply IH. lia. Qed.
Lemma set_nth_other {A} i j (v d : A) l : i <> j -> nth j (set_nth i v l) d = nth j l d.
Proof. revert i j. induction l as [|x l IH]; intros [|i] [|j] H; cbn; auto; try lia. Qed.

Section Any.
  Variables (other : array -> result arrays) (m : model) (default : array).
  Definition given (w : world) (x : option nat) : array := match x with Some a => contents (w_heap w) a | None => default end.

  Lemma combiner_spec x w : (forall a, x = Some a -> (a < length (w_heap w))%nat) ->
    match evaluate other m (given w x) with
    | Err e => combiner other m default x w = Err e
    | Ok v => exists h s, combiner other m default x w = Ok ({| w_heap := h ++ [v_pdf v; v_cdf v; v_sf v; v_hf v; v_chf v]; w_fields := Some s |}, s) /\
        (h = w_heap w \/ h = w_heap w ++ [default]) /\ (f_xvals s < length h)%nat /\ contents h (f_xvals s) = given w x /\
        s = {| f_xvals := f_xvals s; f_pdf := length h; f_cdf := length h + 1; f_sf := length h + 2; f_hf := length h + 3; f_chf := length h + 4 |}
    end.
  Proof.
    intros H. unfold combiner, given. destruct x as [a|].
    - destruct (evaluate other m (contents (w_heap w) a)) as [v|e]; [|reflexivity]. cbn [bind].
      eexists _, _. split; [reflexivity|]. split; [now left|]. split; [cbn; now apply H|]. split; reflexivity.
    - assert (contents (w_heap w ++ [default]) (length (w_heap w)) = default) as -> by (unfold contents; rewrite app_nth2, Nat.sub_diag by lia; reflexivity).
      destruct (evaluate other m default) as [v|e]; [|reflexivity]. cbn [bind].
      eexists _, _. split; [reflexivity|]. split; [now right|]. split; [cbn; rewrite app_length; cbn; lia|].
      split; [unfold contents; cbn [f_xvals]; rewrite app_nth2, Nat.sub_diag by lia; reflexivity|reflexivity].
  Qed.
  Lemma contents_app h l k : contents (h ++ l) (length h + k) = nth k l [].
  Proof. unfold contents. rewrite app_nth2 by lia. f_equal. lia. Qed.
  Lemma contents_old h l a : (a < length h)%nat -> contents (h ++ l) a = contents h a.
  Proof. intros H. unfold contents. now apply app_nth1. Qed.

  (** The value seen by the caller of any method, in any state of memory. *)
  Theorem C166_value f x show w : (forall a, x = Some a -> (a < length (w_heap w))%nat) ->
    let '(w', r) := call other m default f x show w in
    sees (w_heap w') r =
    match evaluate other m (given w x) with
    | Err e => Err e
    | Ok v => Ok (match f, show && negb (length (given w x) <? 2)%nat with PDF_, true | HF_, true => map cap (values_of f v) | _, _ => values_of f v end)
    end.
  Proof.
    intros H. unfold call. pose proof (combiner_spec x w H) as K. destruct (evaluate other m (given w x)) as [v|e]; [|now rewrite K].
    destruct K as (h & s & -> & _ & Hx & Hc & ->). cbn [f_xvals f_pdf f_cdf f_sf f_hf f_chf w_heap field].
    rewrite contents_old by exact Hx. rewrite Hc.
    assert (forall h a, sees h (Ok (unpack h a)) = Ok (contents h a)) as SU.
    { intros h0 a0. unfold sees, unpack. destruct (contents h0 a0) as [|v0 [|v1 l0]] eqn:E0; rewrite ?E0; reflexivity. }
    rewrite SU. f_equal.
    set (fl := Some _). pose proof (contents_app h [v_pdf v; v_cdf v; v_sf v; v_hf v; v_chf v]) as CA.
    assert (forall k, (k < 5)%nat -> contents (w_heap (cap_array (length h + k) {| w_heap := h ++ [v_pdf v; v_cdf v; v_sf v; v_hf v; v_chf v]; w_fields := fl |})) (length h + k)
              = map cap (nth k [v_pdf v; v_cdf v; v_sf v; v_hf v; v_chf v] [])) as CC.
    { intros k Hk. unfold cap_array. cbn [w_heap]. unfold contents at 1. rewrite set_nth_same by (rewrite app_length; cbn; lia). now rewrite CA. }
    pose proof (CA 0%nat) as C0. pose proof (CC 0%nat ltac:(lia)) as K0. pose proof (CC 3%nat ltac:(lia)) as K3. rewrite Nat.add_0_r in C0, K0.
    destruct (length (given w x) <? 2)%nat, show, f; cbn [andb negb field f_pdf f_cdf f_sf f_hf f_chf w_heap values_of];
      first [exact C0|exact K0|exact K3|apply CA].
  Qed.

  Lemma call_extends f x show w a : (a < length (w_heap w))%nat ->
    let w' := fst (call other m default f x show w) in contents (w_heap w') a = contents (w_heap w) a /\ (length (w_heap w) <= length (w_heap w'))%nat.
  Proof.
    intros H. unfold call, combiner. destruct x as [b|]; [set (h := w_heap w)|set (h := w_heap w ++ [default])];
      (assert ((a < length h)%nat /\ contents h a = contents (w_heap w) a /\ (length (w_heap w) <= length h)%nat) as (Ha & Hc & Hl)
         by (unfold h; rewrite ?app_length; cbn; repeat split; try lia; unfold contents; now rewrite ?app_nth1 by lia));
      (destruct (evaluate other m _) as [v|e]; [|cbn; auto]); cbn [bind fst];
      (destruct (if (_ <? 2)%nat then false else show), f; cbn [w_heap cap_array f_pdf f_hf fst]; unfold contents in *; rewrite ?set_nth_length, ?set_nth_other, ?app_nth1, ?app_length by lia; split; auto; lia).
  Qed.
  Lemma plot_extends x w a : (a < length (w_heap w))%nat ->
    let w' := fst (plot other m default x w) in contents (w_heap w') a = contents (w_heap w) a /\ (length (w_heap w) <= length (w_heap w'))%nat.
  Proof.
    intros H. unfold plot, combiner. destruct x as [b|]; [set (h := w_heap w)|set (h := w_heap w ++ [default])];
      (assert ((a < length h)%nat /\ contents h a = contents (w_heap w) a /\ (length (w_heap w) <= length h)%nat) as (Ha & Hc & Hl)
         by (unfold h; rewrite ?app_length; cbn; repeat split; try lia; unfold contents; now rewrite ?app_nth1 by lia));
      (destruct (evaluate other m _) as [v|e]; [|cbn; auto]); cbn [bind fst];
      cbn [w_heap cap_array f_pdf f_hf fst]; unfold contents in *; rewrite ?set_nth_length, ?set_nth_other, ?app_nth1, ?app_length by lia; split; auto; lia.
  Qed.

  (** Nothing the methods do changes an array the caller has: neither the x values given nor the results of earlier calls. *)
  Theorem C166_unchanged c w a : (a < length (w_heap w))%nat -> never_written a c ->
    contents (w_heap (run other m default c w)) a = contents (w_heap w) a.
  Proof.
    assert (forall c w, (a < length (w_heap w))%nat -> never_written a c ->
      contents (w_heap (run other m default c w)) a = contents (w_heap w) a) as K; [|now apply K].
    clear c w. induction c as [|d c IH]; intros w H N; [reflexivity|]. cbn [run fold_left].
    assert (contents (w_heap (act other m default w d)) a = contents (w_heap w) a /\ (length (w_heap w) <= length (w_heap (act other m default w d)))%nat) as [E L].
    { destruct d as [l|b i v|f x s|x]; cbn [act w_heap].
      - rewrite app_length. split; [now apply contents_old|lia].
      - rewrite set_nth_length. split; [|lia]. unfold contents. apply set_nth_other. intros ->. apply (N i v). now left.
      - now apply call_extends.
      - now apply plot_extends. }
    rewrite <- E. apply IH; [lia|]. intros i v Hi. apply (N i v). now right.
  Qed.

  (** A returned array is a new one. *)
  Theorem C166_new_array f x show w a : snd (call other m default f x show w) = Ok (R_array a) -> (length (w_heap w) <= a)%nat.
  Proof.
    unfold call, combiner. destruct x as [b|]; (destruct (evaluate other m _) as [v|e]; [|discriminate]); cbn [bind snd]; unfold unpack;
      (match goal with |- context [contents ?h ?k] => destruct (contents h (field f _)) as [|? [|? ?]] end); intros E; try discriminate E; injection E as <-;
      destruct f; cbn [field f_pdf f_cdf f_sf f_hf f_chf]; rewrite ?app_length; lia.
  Qed.
End Any.
Print Assumptions C166_value.
Print Assumptions C166_unchanged.
Print Assumptions C166_new_array.

(** Whatever was done before with the model, with its results and with other arrays: the same x values give the same results. *)
Theorem C166_history other m default f show (c1 c2 : list action) w1 w2 x1 x2 :
  let u1 := run other m default c1 w1 in let u2 := run other m default c2 w2 in
  (forall a, x1 = Some a -> (a < length (w_heap u1))%nat) -> (forall a, x2 = Some a -> (a < length (w_heap u2))%nat) ->
  given default u1 x1 = given default u2 x2 ->
  let '(v1, r1) := call other m default f x1 show u1 in let '(v2, r2) := call other m default f x2 show u2 in
  sees (w_heap v1) r1 = sees (w_heap v2) r2.
Proof.
  intros u1 u2 H1 H2 E. pose proof (C166_value other m default f x1 show u1 H1) as K1. pose proof (C166_value other m default f x2 show u2 H2) as K2.
  destruct (call other m default f x1 show u1) as [v1 r1], (call other m default f x2 show u2) as [v2 r2]. rewrite K1, K2, E. reflexivity.
Qed.
Print Assumptions C166_history.

(** CDF, SF and CHF return the same with and without a plot; so do PDF and HF if no value is above 10^100. *)
Theorem C166_show_plot_partial other m default f x w : (forall a, x = Some a -> (a < length (w_heap w))%nat) ->
  (f = PDF_ \/ f = HF_ -> forall v, evaluate other m (given default w x) = Ok v -> Forall moderate (values_of f v)) ->
  let '(w1, r1) := call other m default f x true w in let '(w2, r2) := call other m default f x false w in
  sees (w_heap w1) r1 = sees (w_heap w2) r2.
Proof.
  intros H M. pose proof (C166_value other m default f x true w H) as K1. pose proof (C166_value other m default f x false w H) as K2.
  destruct (call other m default f x true w) as [w1 r1], (call other m default f x false w) as [w2 r2]. rewrite K1, K2. clear K1 K2.
  destruct (evaluate other m (given default w x)) as [v|e]; [|reflexivity]. f_equal.
  assert (f = PDF_ \/ f = HF_ -> map cap (values_of f v) = values_of f v) as K.
  { intros F. specialize (M F v eq_refl). rewrite <- (map_id (values_of f v)) at 2. apply map_ext_in. intros e He. rewrite Forall_forall in M. specialize (M e He).
    destruct e as [r| |]; unfold moderate in M; cbn [cap]; [destruct (Rlt_dec (10 ^ 100) r) as [G|G]; [apply Rlt_not_le in G; contradiction|reflexivity]|destruct M|reflexivity]. }
  destruct (length (given default w x) <? 2)%nat, f; cbn [andb negb]; auto.
Qed.
Print Assumptions C166_show_plot_partial.

(** A plot changes the hazard of two Weibull distributions with beta = 1/2 at zero from inf to 10^100. *)
Theorem C166_show_plot_refuted : exists m w, (match m with Competing_Risks ds => Forall valid ds | _ => False end) /\ forall other default,
  let '(w1, r1) := call other m default HF_ (Some 0%nat) true w in let '(w2, r2) := call other m default HF_ (Some 0%nat) false w in
  exists l1 l2, sees (w_heap w1) r1 = Ok (Fin (10 ^ 100) :: l1) /\ sees (w_heap w2) r2 = Ok (PInf :: l2).
Proof.
  exists (Competing_Risks [Weibull 1 (1 / 2) 0; Weibull 1 (1 / 2) 0]), {| w_heap := [[Fin 0; Fin 1]]; w_fields := None |}.
  split; [repeat constructor; cbn; lra|]. intros other default.
  set (m := Competing_Risks _). set (w := {| w_heap := [[Fin 0; Fin 1]]; w_fields := None |}).
  assert (forall a, Some 0%nat = Some a -> (a < length (w_heap w))%nat) as H by (intros a E; injection E as <-; cbn; lia).
  pose proof (C166_value other m default HF_ (Some 0%nat) true w H) as K1. pose proof (C166_value other m default HF_ (Some 0%nat) false w H) as K2.
  destruct (call other m default HF_ (Some 0%nat) true w) as [w1 r1], (call other m default HF_ (Some 0%nat) false w) as [w2 r2]. rewrite K1, K2. clear K1 K2.
  assert (exists v l, evaluate other m (given default w (Some 0%nat)) = Ok v /\ v_hf v = PInf :: l) as (v & l & -> & E).
  { assert (forall x, 0 <= x -> Rltb' x 0 = false) as RB by (intros x Hx; unfold Rltb'; destruct (Rlt_dec x 0); [lra|reflexivity]).
    assert (array_ok (Weibull 1 (1 / 2) 0) [0; 1] = true) as AO. { unfold array_ok. cbn [is_signed is_beta orb negb forallb andb]. now rewrite !RB by lra. }
    assert (nonneg_part [0; 1] = [0; 1] /\ neg_part [0; 1] = []) as [NP NN]. { unfold nonneg_part, neg_part. cbn [filter]. now rewrite !RB by lra. }
    assert (hf_formula (Weibull 1 (1 / 2) 0) 0 = PInf) as HI.
    { cbn [hf_formula]. replace ((0 - 0) / 1) with 0 by field. unfold npow. repeat (destruct (Rlt_dec _ _); try lra). repeat (destruct (Req_EM_T _ _); try lra). reflexivity. }
    unfold evaluate, m, given, w, contents. cbn [w_heap nth numbers]. unfold cr_combine, comb_check. cbn [existsb is_signed orb negb]. rewrite !RB by lra. cbn [orb andb bind].
    unfold accumulate, component. cbn [is_signed]. rewrite NP, NN. unfold SF, HF. rewrite AO. cbn [bind repeat length app map zip].
    unfold thresholded, zeroise_below_gamma. cbn [zeroised]. destruct (Rlt_dec 0 0); [lra|]. rewrite HI. cbn [zip eadd bind].
    eexists _, _. split; [reflexivity|]. cbn [v_hf cr_hf]. reflexivity. }
  cbn [values_of]. unfold given, w, contents. cbn [w_heap nth length Nat.ltb Nat.leb negb andb]. rewrite E. cbn [map cap]. eauto.
Qed.
Print Assumptions C166_show_plot_refuted.

(** A history: an array is made, used, and the result is written to. *)
Example C166_case other default : let m := Mixture [Exponential 1 0; Weibull 1 2 0] [1 / 2; 1 / 2] in
  let c := [A_new [Fin 1; Fin 2]; A_call PDF_ (Some 0%nat) true; A_write 1 0 NaN] in
  never_written 0 c /\ (0 < length (w_heap (run other m default c {| w_heap := []; w_fields := None |})))%nat.
Proof.
  intros m c. split.
  - intros i v [E|[E|[E|[]]]]; discriminate E.
  - unfold c, run. cbn [fold_left]. set (w := act _ _ _ {| w_heap := []; w_fields := None |} (A_new _)).
    assert (0 < length (w_heap w))%nat as L by (cbn; lia). destruct (call_extends other m default PDF_ (Some 0%nat) true w 0 L) as [_ G].
    change (act other m default w (A_call PDF_ (Some 0%nat) true)) with (fst (call other m default PDF_ (Some 0%nat) true w)).
    set (w2 := fst _) in *. cbn [act w_heap]. rewrite set_nth_length. lia.
Qed.
