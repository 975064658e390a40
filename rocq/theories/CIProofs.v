(** Proofs about confidence limits, no_reverse and clean_CI_arrays. *)
From Coquelicot Require Import Coquelicot.
From Coq Require Import String.
From Coq Require Import List Arith Reals Lra Lia Bool.
From Verif Require Import Base RealFacts Gauss Ext RList ConvertModel RepairModel RepairProofs DistModel DistSpec DistProofs DistProofs2 CombProofs RegProofs SelModel
  CIModel CISpec.
Import ListNotations.
Open Scope R_scope.

(** ** Z *)
Lemma Z_nonneg CI : 0 < CI < 1 -> 0 < Z_of CI.
Proof. intros H. unfold Z_of. pose proof (norm_ppf_neg ((1 - CI) / 2) ltac:(lra)). lra. Qed.
Lemma Z_mono CI CI' : 0 < CI -> CI <= CI' -> CI' < 1 -> Z_of CI <= Z_of CI'.
Proof.
  intros H1 H2 H3. unfold Z_of. destruct (Req_dec CI CI') as [->|]; [lra|].
  pose proof (norm_ppf_increasing ((1 - CI') / 2) ((1 - CI) / 2) ltac:(lra) ltac:(lra) ltac:(lra)). lra.
Qed.
Lemma Z_cover CI : 0 < CI < 1 -> Phi (Z_of CI) - Phi (- Z_of CI) = CI.
Proof.
  intros H. unfold Z_of. rewrite Ropp_involutive, Phi_sym, Phi_norm_ppf by lra. lra.
Qed.

(** ** Limits of one parameter *)
Lemma exp_mono u v : u <= v -> exp u <= exp v.
Proof. intros H. apply exp_le. exact H. Qed.
Lemma log_nested e z z' s : e <> 0 -> 0 <= s -> z <= z' -> e * exp (z * (s / e)) <= e * exp (z' * (s / e)).
Proof.
  intros He Hs Hz. destruct (Rlt_or_le 0 e) as [H|H].
  - apply Rmult_le_compat_l; [lra|]. apply exp_mono. apply Rmult_le_compat_r; [|exact Hz].
    apply Rmult_le_pos; [exact Hs|]. left. now apply Rinv_0_lt_compat.
  - apply Rmult_le_compat_neg_l; [lra|]. apply exp_mono. apply Rmult_le_compat_neg_l with (r := s / e) in Hz.
    + lra.
    + assert (0 < - e) by lra. replace (s / e) with (- (s / - e)) by (field; lra). pose proof (Rdiv_le_0_compat s (- e) Hs H0). lra.
Qed.
Lemma logit_nested p k k' : 0 < p < 1 -> k <= k' -> p / (p + (1 - p) * exp k') <= p / (p + (1 - p) * exp k).
Proof.
  intros H Hk. pose proof (exp_pos k). pose proof (exp_pos k'). pose proof (exp_mono k k' Hk).
  assert (0 < (1 - p) * exp k) by (apply Rmult_lt_0_compat; lra). assert ((1 - p) * exp k <= (1 - p) * exp k') by (apply Rmult_le_compat_l; lra).
  apply Rmult_le_compat_l; [lra|]. apply Rinv_le_contravar; lra.
Qed.
Lemma logit_at_0 p : p / (p + (1 - p) * exp 0) = p.
Proof. rewrite exp_0. replace (p + (1 - p) * 1) with 1 by ring. field. Qed.
Lemma logit_range p k : 0 < p < 1 -> 0 < p / (p + (1 - p) * exp k) < 1.
Proof.
  intros H. pose proof (exp_pos k). assert (0 < (1 - p) * exp k) by (apply Rmult_lt_0_compat; lra).
  split; [apply Rdiv_lt_0_compat; lra|]. apply Rmult_lt_reg_r with (p + (1 - p) * exp k); [lra|]. unfold Rdiv. rewrite Rmult_assoc, Rinv_l by lra. lra.
Qed.

Lemma limits_nested k z z' e s : estimate_ok k e -> 0 <= s -> 0 <= z <= z' -> inside_of (param_limits k z e s) (param_limits k z' e s).
Proof.
  intros He Hs Hz. unfold inside_of. destruct k; simpl in He |- *.
  - split; [reflexivity|]. do 4 eexists. repeat (split; [reflexivity|]).
    split; apply log_nested; lra.
  - split; [reflexivity|]. do 4 eexists. repeat (split; [reflexivity|]).
    assert (z * s <= z' * s) by (apply Rmult_le_compat_r; lra). split; lra.
  - destruct (Req_EM_T e 1); [|destruct (Req_EM_T e 0)].
    + split; [reflexivity|]. do 4 eexists. repeat (split; [reflexivity|]). split; lra.
    + split; [reflexivity|]. do 4 eexists. repeat (split; [reflexivity|]). split; lra.
    + split; [reflexivity|]. do 4 eexists. repeat (split; [reflexivity|]).
      assert (0 < e < 1) by lra. assert (0 < e * (1 - e)) by (apply Rmult_lt_0_compat; lra).
      assert (z * s <= z' * s) by (apply Rmult_le_compat_r; lra).
      split; apply logit_nested; try exact H; apply Rmult_le_compat_r; try (left; now apply Rinv_0_lt_compat); lra.
  - split; [reflexivity|]. do 4 eexists. repeat (split; [reflexivity|]). split; lra.
  - destruct (Req_EM_T e 0); [contradiction|]. split; [reflexivity|]. do 4 eexists. repeat (split; [reflexivity|]).
    split; apply log_nested; lra.
Qed.
Lemma limits_at_0 k e s : estimate_ok k e -> p_est (param_limits k 0 e s) = e /\ p_lower (param_limits k 0 e s) = Fin e /\ p_upper (param_limits k 0 e s) = Fin e.
Proof.
  intros He. destruct k; simpl in He |- *.
  - rewrite Ropp_0, Rmult_0_l, exp_0, Rmult_1_r. auto.
  - repeat split; f_equal; ring.
  - destruct (Req_EM_T e 1) as [->|]; [auto|]. destruct (Req_EM_T e 0) as [->|]; [auto|]. simpl. repeat split; f_equal.
    + rewrite <- (logit_at_0 e) at 6. do 4 f_equal. field. split; lra.
    + rewrite <- (logit_at_0 e) at 6. do 4 f_equal. field. split; lra.
  - auto.
  - destruct (Req_EM_T e 0); [contradiction|]. simpl. rewrite Ropp_0, Rmult_0_l, exp_0, Rmult_1_r. auto.
Qed.
Lemma limits_bracket k z e s : estimate_ok k e -> 0 <= s -> 0 <= z -> brackets (param_limits k z e s).
Proof.
  intros He Hs Hz. destruct (limits_nested k 0 z e s He Hs ltac:(lra)) as (E & l & u & l' & u' & E1 & E2 & E3 & E4 & H1 & H2).
  destruct (limits_at_0 k e s He) as (F0 & F1 & F2). rewrite F1 in E1. rewrite F2 in E2. injection E1 as <-. injection E2 as <-.
  exists l', u'. repeat (split; [assumption|]). rewrite <- E, F0. lra.
Qed.
Lemma limits_est k z e s : p_est (param_limits k z e s) = e.
Proof. destruct k; simpl; try reflexivity; repeat match goal with |- context [if ?b then _ else _] => destruct b end; reflexivity. Qed.

(** ** The rows of a fitter *)
Lemma limits_of_nth kinds Z : forall ests ses i r, nth_error (limits_of kinds Z ests ses) i = Some r ->
  exists k e s, nth_error kinds i = Some k /\ nth_error ests i = Some e /\ nth_error ses i = Some s /\ r = param_limits k Z e s.
Proof.
  induction kinds as [|k kinds IH]; intros [|e ests] [|s ses] [|i] r; simpl; try discriminate.
  - intros H. injection H as <-. eauto 8.
  - apply IH.
Qed.
Lemma Forall2_nth {A B} (P : A -> B -> Prop) l l' i b : Forall2 P l l' -> nth_error l' i = Some b -> exists a, nth_error l i = Some a /\ P a b.
Proof.
  intros H. revert i. induction H as [|x y l l' H _ IH]; intros [|i]; simpl; try discriminate.
  - intros E. injection E as <-. eauto.
  - apply IH.
Qed.
Lemma Forall2_nth1 {A B} (P : A -> B -> Prop) l l' i a : Forall2 P l l' -> nth_error l i = Some a -> exists b, nth_error l' i = Some b /\ P a b.
Proof.
  intros H. revert i. induction H as [|x y l l' H _ IH]; intros [|i]; simpl; try discriminate.
  - intros E. injection E as <-. eauto.
  - apply IH.
Qed.

Lemma fit_limits_row d forced CI ests diag opt rows i r :
  0 < CI < 1 -> Forall2 estimate_ok (param_kinds d forced) ests -> fit_limits d forced CI ests diag opt = Ok rows -> nth_error rows i = Some r ->
  exists k e s z, nth_error (param_kinds d forced) i = Some k /\ nth_error ests i = Some e /\ 0 <= s /\ 0 <= z /\ estimate_ok k e /\
    p_est r = e /\ p_lower r = p_lower (param_limits k z e s) /\ p_upper r = p_upper (param_limits k z e s) /\
    (diag <> None -> z = Z_of CI) /\ (diag = None -> z = 0) /\
    (forall c, diag = Some c -> exists v, nth_error c i = Some v /\ s = sqrt (Rabs v)).
Proof.
  intros HC HF. unfold fit_limits. destruct diag as [c|].
  - intros H. injection H as <-. intros Hn. apply limits_of_nth in Hn. destruct Hn as (k & e & s & Hk & He & Hs & ->).
    rewrite nth_error_map in Hs. destruct (nth_error c i) as [v|] eqn:Ev; [|discriminate]. injection Hs as <-.
    destruct (Forall2_nth1 _ _ _ _ _ HF Hk) as (e' & He' & Hok). rewrite He in He'. injection He' as <-.
    exists k, e, (sqrt (Rabs v)), (Z_of CI). split; [exact Hk|]. split; [exact He|]. split; [apply sqrt_pos|]. split; [left; now apply Z_nonneg|].
    split; [exact Hok|]. split; [apply limits_est|]. split; [reflexivity|]. split; [reflexivity|]. split; [reflexivity|]. split; [discriminate|].
    intros c0 Hc. injection Hc as <-. eauto.
  - destruct opt; [|discriminate]. intros H. injection H as <-. intros Hn. rewrite nth_error_map in Hn. destruct (nth_error ests i) as [e|] eqn:Ee; [|discriminate].
    injection Hn as <-. destruct (Forall2_nth _ _ _ _ _ HF Ee) as (k & Hk & Hok). destruct (limits_at_0 k e 0 Hok) as (F0 & F1 & F2).
    exists k, e, 0, 0. split; [exact Hk|]. split; [reflexivity|]. split; [lra|]. split; [lra|]. split; [exact Hok|]. simpl. rewrite F1, F2.
    repeat (split; [reflexivity|]). split; [congruence|]. split; [reflexivity|]. discriminate.
Qed.

(** ** no_reverse *)
Lemma rmin_le l x : In x l -> rmin l <= x.
Proof.
  destruct l as [|a l]; [easy|]. simpl. induction l as [|b l IH]; simpl; intros [H|H]; subst.
  - lra. - easy.
  - eapply Rle_trans; [apply Rmin_r|]. apply IH. now left.
  - destruct H as [->|H]; [apply Rmin_l|]. eapply Rle_trans; [apply Rmin_r|]. apply IH. now right.
Qed.
Lemma rmin_in l : l <> [] -> In (rmin l) l.
Proof.
  destruct l as [|a l]; [easy|]. intros _. simpl. induction l as [|b l IH]; simpl; [now left|].
  destruct (Rle_dec b (fold_right Rmin a l)); [rewrite Rmin_left by assumption; auto|]. rewrite Rmin_right by lra. destruct IH as [H|H]; auto.
Qed.
Lemma first_index_spec v l : In v l -> (first_index v l < length l)%nat /\ nth (first_index v l) l 0 = v /\ forall i, (i < first_index v l)%nat -> nth i l 0 <> v.
Proof.
  induction l as [|a l IH]; [easy|]. intros H. simpl. destruct (Req_EM_T a v) as [->|N].
  - split; [lia|]. split; [reflexivity|]. intros; lia.
  - destruct H as [H|H]; [contradiction|]. destruct (IH H) as (H1 & H2 & H3). split; [lia|]. split; [exact H2|].
    intros [|i] Hi; [exact N|]. simpl. apply H3. lia.
Qed.
Lemma fill_from_length i v l : (i <= length l)%nat -> length (fill_from i v l) = length l.
Proof. intros H. unfold fill_from. rewrite app_length, firstn_length, repeat_length. lia. Qed.
Lemma nth_firstn {A} (l : list A) n i d : (i < n)%nat -> nth i (firstn n l) d = nth i l d.
Proof. revert n i. induction l as [|a l IH]; intros [|n] [|i] H; simpl; try reflexivity; try lia. apply IH. lia. Qed.
Lemma nth_repeat_lt {A} (v d : A) n i : (i < n)%nat -> nth i (repeat v n) d = v.
Proof. revert i. induction n as [|n IH]; intros [|i] H; simpl; try lia; [reflexivity|]. apply IH. lia. Qed.
Lemma fill_from_nth i v l j : (i <= length l)%nat -> (j < length l)%nat -> nth j (fill_from i v l) 0 = if (j <? i)%nat then nth j l 0 else v.
Proof.
  intros Hi Hj. unfold fill_from. destruct (j <? i)%nat eqn:E; [apply Nat.ltb_lt in E|apply Nat.ltb_ge in E].
  - rewrite app_nth1 by (rewrite firstn_length; lia). now apply nth_firstn.
  - rewrite app_nth2 by (rewrite firstn_length; lia). rewrite firstn_length. replace (j - Nat.min i (length l))%nat with (j - i)%nat by lia.
    apply nth_repeat_lt. lia.
Qed.
(** Every entry of the result. *)
Definition extreme (dec : bool) (l : list R) : R := if dec then rmin l else rmax l.
Lemma extreme_in dec l : l <> [] -> In (extreme dec l) l.
Proof. destruct dec; [apply rmin_in|apply rmax_in]. Qed.
Lemma no_reverse_eq dec l : l <> [] -> no_reverse_finite dec l = fill_from (first_index (extreme dec l) l) (extreme dec l) l.
Proof.
  intros H. assert (forall v, In v l -> (if (first_index v l <? length l - 1)%nat then fill_from (first_index v l) v l else l) = fill_from (first_index v l) v l) as HH.
  { intros v Hv. destruct (first_index_spec v l Hv) as (H1 & H2 & H3). destruct (Nat.ltb_spec (first_index v l) (length l - 1)); [reflexivity|].
    apply nth_ext with 0 0; [rewrite fill_from_length; lia|]. intros j Hj. rewrite fill_from_nth by lia. destruct (j <? first_index v l)%nat eqn:E; [reflexivity|].
    apply Nat.ltb_ge in E. assert (j = first_index v l) as -> by lia. exact H2. }
  unfold no_reverse_finite, extreme. destruct dec; apply HH; [apply rmin_in|apply rmax_in]; exact H.
Qed.
Lemma no_reverse_length dec l : length (no_reverse_finite dec l) = length l.
Proof.
  destruct l as [|a l]; [destruct dec; reflexivity|]. rewrite no_reverse_eq by discriminate. apply fill_from_length.
  destruct (first_index_spec _ _ (extreme_in dec (a :: l) ltac:(discriminate))) as (H1 & _). lia.
Qed.
Lemma no_reverse_nth dec l j : (j < length l)%nat ->
  nth j (no_reverse_finite dec l) 0 = if (j <? first_index (extreme dec l) l)%nat then nth j l 0 else extreme dec l.
Proof.
  intros H. assert (l <> []) by (intros ->; simpl in H; lia). rewrite no_reverse_eq by assumption.
  destruct (first_index_spec _ _ (extreme_in dec l H0)) as (H1 & _). apply fill_from_nth; lia.
Qed.
(** The extreme value of the result is that of the input, at the same first position. *)
Lemma first_index_firstn v : forall l i w, (i <= length l)%nat -> (forall j, (j < i)%nat -> nth j l 0 <> v) -> (i < length l)%nat -> w = v ->
  first_index v (fill_from i w l) = i.
Proof.
  intros l i w Hi Hn Hl ->. revert i Hi Hn Hl. induction l as [|a l IH]; intros [|i] Hi Hn Hl; simpl in *; try lia.
  - unfold fill_from. simpl. destruct (Req_EM_T v v); [reflexivity|contradiction].
  - unfold fill_from in *. simpl. destruct (Req_EM_T a v) as [->|]; [exfalso; now apply (Hn 0%nat ltac:(lia))|]. f_equal. apply IH; try lia.
    intros j Hj. apply (Hn (S j)). lia.
Qed.
Lemma extreme_best (dec : bool) l x : In x l -> if dec then extreme dec l <= x else x <= extreme dec l.
Proof. destruct dec; intros H; simpl; [now apply rmin_le|now apply rmax_ge]. Qed.
Lemma extreme_unique (dec : bool) l v : In v l -> (forall x, In x l -> if dec then v <= x else x <= v) -> extreme dec l = v.
Proof.
  intros Hv Hb. assert (l <> []) as Hne by (intros ->; easy). pose proof (extreme_best dec l v Hv) as H1. pose proof (Hb _ (extreme_in dec l Hne)) as H2.
  destruct dec; lra.
Qed.
Lemma no_reverse_in dec l x : In x (no_reverse_finite dec l) -> In x l.
Proof.
  intros H. apply (In_nth _ _ 0) in H. destruct H as (j & Hj & <-). rewrite no_reverse_length in Hj. rewrite no_reverse_nth by exact Hj.
  assert (l <> []) by (intros ->; simpl in Hj; lia). destruct (j <? _)%nat; [now apply nth_In|now apply extreme_in].
Qed.
Lemma no_reverse_extreme dec l : l <> [] -> extreme dec (no_reverse_finite dec l) = extreme dec l.
Proof.
  intros H. apply extreme_unique.
  - destruct (first_index_spec _ _ (extreme_in dec l H)) as (H1 & H2 & _).
    assert (nth (first_index (extreme dec l) l) (no_reverse_finite dec l) 0 = extreme dec l) as E.
    { rewrite no_reverse_nth by exact H1. rewrite Nat.ltb_irrefl. reflexivity. }
    rewrite <- E at 1. apply nth_In. now rewrite no_reverse_length.
  - intros x Hx. apply extreme_best. now apply no_reverse_in in Hx.
Qed.
Lemma no_reverse_idem dec l : no_reverse_finite dec (no_reverse_finite dec l) = no_reverse_finite dec l.
Proof.
  destruct l as [|a l]; [destruct dec; reflexivity|]. set (x := a :: l). assert (x <> []) as Hx by discriminate.
  assert (no_reverse_finite dec x <> []) as Hy. { intros E. apply (f_equal (@length R)) in E. rewrite no_reverse_length in E. discriminate. }
  rewrite (no_reverse_eq dec (no_reverse_finite dec x) Hy), no_reverse_extreme by exact Hx.
  destruct (first_index_spec _ _ (extreme_in dec x Hx)) as (H1 & H2 & H3).
  assert (first_index (extreme dec x) (no_reverse_finite dec x) = first_index (extreme dec x) x) as ->.
  { rewrite no_reverse_eq by exact Hx. apply first_index_firstn; try lia; auto. }
  apply nth_ext with 0 0; [apply fill_from_length; rewrite no_reverse_length; lia|]. intros j Hj.
  rewrite fill_from_length in Hj by (rewrite no_reverse_length; lia). rewrite fill_from_nth by (rewrite ?no_reverse_length in *; lia).
  rewrite no_reverse_length in Hj. rewrite no_reverse_nth by exact Hj. destruct (j <? _)%nat; reflexivity.
Qed.
Lemma all_finite_Some l v : all_finite l = Some v -> l = map Some v.
Proof.
  revert v. induction l as [|[a|] l IH]; simpl; intros v H; try discriminate; [now injection H as <-|].
  destruct (all_finite l) as [t|]; [|discriminate]. injection H as <-. simpl. f_equal. now apply IH.
Qed.
Lemma all_finite_map v : all_finite (map Some v) = Some v.
Proof. induction v as [|a v IH]; simpl; [reflexivity|]. now rewrite IH. Qed.

(** ** clean_CI_arrays *)
Definition row_value (r : row4) : option quad :=
  match r with (Some a, Some b, Some c, Some e) => Some (a, b, c, e) | _ => None end.
Fixpoint somes {A} (l : list (option A)) : list A := match l with [] => [] | Some a :: r => a :: somes r | None :: r => somes r end.
Lemma keep_finite_rows rows : keep_finite (map col1 rows) (map col2 rows) (map col3 rows) (map col4 rows) = Ok (somes (map row_value rows)).
Proof.
  induction rows as [|[[[a b] c] e] rows IH]; [reflexivity|]. cbn [map keep_finite col1 col2 col3 col4 tl read].
  destruct a, b, c, e; cbn [bind]; rewrite IH; reflexivity.
Qed.
Lemma somes_length {A} (l : list (option A)) : (length (somes l) <= length l)%nat.
Proof. induction l as [|[a|] l IH]; simpl; lia. Qed.
Definition is_prob (pt : string) : bool := str_in (upper pt) ["CDF"; "SF"]%string.
Lemma is_prob_spec pt : is_prob pt = true <-> is_probability pt.
Proof.
  unfold is_prob, str_in, is_probability. simpl. rewrite !orb_true_iff, !String.eqb_eq. split; [intros [H|[H|H]]; auto; discriminate|intros [H|H]; auto].
Qed.
Definition row_ok (pt : string) (p : quad) : bool :=
  (if is_prob pt then Rltb' (q_yl p) 1 && Rltb' (q_yu p) 1 else true) && (Rltb' clean_tol (q_yl p) && Rltb' clean_tol (q_yu p)).
Lemma filter_filter {A} (f g : A -> bool) l : filter g (filter f l) = filter (fun x => f x && g x) l.
Proof. induction l as [|a l IH]; simpl; [reflexivity|]. destruct (f a); simpl; [destruct (g a); now rewrite IH|exact IH]. Qed.
Lemma clean_rows pt xl xu yl yu xg qg out : keep_finite xl xu yl yu = Ok out ->
  clean_CI_arrays xl xu yl yu pt xg qg =
  let out3 := filter (row_ok pt) out in
  if negb (length out3 =? length xl)%nat && xg then Err ValueError
  else if negb (length out3 =? length yl)%nat && qg then Err ValueError
  else Ok (map q_xl out3, map q_xu out3, map q_yl out3, map q_yu out3).
Proof.
  intros H. unfold clean_CI_arrays. rewrite H. cbn [bind]. fold (is_prob pt).
  replace (filter (fun p => Rltb' clean_tol (q_yl p) && Rltb' clean_tol (q_yu p)) (if is_prob pt then filter (fun p => Rltb' (q_yl p) 1 && Rltb' (q_yu p) 1) out else out))
    with (filter (row_ok pt) out); [reflexivity|].
  unfold row_ok. destruct (is_prob pt); [now rewrite filter_filter|reflexivity].
Qed.
Lemma row_ok_spec pt p : row_ok pt p = true <-> legal_y pt (q_yl p) /\ legal_y pt (q_yu p).
Proof.
  unfold row_ok, legal_y. rewrite !andb_true_iff, !Rltb'_true. fold clean_tol. rewrite <- is_prob_spec. destruct (is_prob pt).
  - rewrite andb_true_iff, !Rltb'_true. tauto.
  - intuition discriminate.
Qed.
Lemma legal_row_spec pt r v : legal_row pt r v <-> row_value r = Some v /\ row_ok pt v = true.
Proof.
  rewrite row_ok_spec. destruct v as [[[a b] c] e]. destruct r as [[[a' b'] c'] e']. unfold legal_row. simpl. split.
  - intros (H & H1 & H2). injection H as -> -> -> ->. auto.
  - intros (H & H1 & H2). destruct a', b', c', e'; try discriminate. injection H as -> -> -> ->. auto.
Qed.
Lemma filter_legal pt rows : legal_rows pt rows (filter (row_ok pt) (somes (map row_value rows))).
Proof.
  induction rows as [|r rows IH]; [constructor|]. cbn [map somes]. destruct (row_value r) as [v|] eqn:E.
  - cbn [somes filter]. destruct (row_ok pt v) eqn:Ev.
    + apply lr_keep; [now apply legal_row_spec|exact IH].
    + apply lr_drop; [|exact IH]. intros v' H. apply legal_row_spec in H. destruct H as [H1 H2]. congruence.
  - apply lr_drop; [|exact IH]. intros v' H. apply legal_row_spec in H. destruct H as [H1 H2]. congruence.
Qed.
Lemma legal_rows_length pt rows out : legal_rows pt rows out -> (length out <= length rows)%nat /\
  (length out = length rows -> Forall2 (legal_row pt) rows out) /\ (Exists (fun r => forall v, ~ legal_row pt r v) rows -> (length out < length rows)%nat).
Proof.
  induction 1 as [|r v rows out H Hr IH|r rows out H Hr IH]; simpl.
  - split; [lia|]. split; [constructor|]. intros E. inversion E.
  - destruct IH as (I1 & I2 & I3). split; [lia|]. split; [intros E; constructor; [exact H|apply I2; lia]|]. intros E.
    inversion E as [? ? C|? ? C]; subst; [exfalso; now apply (C v)|]. specialize (I3 C). lia.
  - destruct IH as (I1 & I2 & I3). split; [lia|]. split; [lia|]. intros; lia.
Qed.
Lemma legal_all pt rows : (forall r, In r rows -> exists v, legal_row pt r v) -> exists out, Forall2 (legal_row pt) rows out.
Proof.
  induction rows as [|r rows IH]; intros H; [exists []; constructor|]. destruct (H r (or_introl eq_refl)) as (v & Hv).
  destruct IH as (out & Ho); [intros; apply H; now right|]. exists (v :: out). now constructor.
Qed.
Lemma legal_row_fun pt r v v' : legal_row pt r v -> legal_row pt r v' -> v = v'.
Proof. rewrite !legal_row_spec. intros [H _] [H' _]. congruence. Qed.
Lemma legal_rows_all pt rows out : Forall2 (legal_row pt) rows out -> legal_rows pt rows out.
Proof. induction 1; [constructor|now apply lr_keep]. Qed.
Lemma legal_rows_fun pt rows out : legal_rows pt rows out -> forall out', legal_rows pt rows out' -> out = out'.
Proof.
  induction 1 as [|r v rows out H Hr IH|r rows out H Hr IH]; intros out' H'; inversion H'; subst.
  - reflexivity.
  - f_equal; [eapply legal_row_fun; eassumption|now apply IH].
  - exfalso. match goal with C : forall v, ~ legal_row pt r v |- _ => now apply (C v) end.
  - exfalso. match goal with C : legal_row pt r ?v |- _ => now apply (H v) end.
  - now apply IH.
Qed.

(** When the user asked for the points, all of them are returned. *)
Lemma clean_given pt rows xg qg a b c e : xg || qg = true ->
  clean_CI_arrays (map col1 rows) (map col2 rows) (map col3 rows) (map col4 rows) pt xg qg = Ok (a, b, c, e) ->
  exists out, Forall2 (legal_row pt) rows out /\ a = map q_xl out /\ b = map q_xu out /\ c = map q_yl out /\ e = map q_yu out.
Proof.
  intros Hg. rewrite (clean_rows _ _ _ _ _ _ _ _ (keep_finite_rows rows)). cbv zeta. set (out := filter _ _). rewrite !map_length.
  destruct (Nat.eqb_spec (length out) (length rows)) as [El|].
  - cbn [negb andb]. intros H. injection H as <- <- <- <-. exists out. split; [|auto].
    pose proof (filter_legal pt rows) as HL. now apply (proj2 (legal_rows_length _ _ _ HL)).
  - cbn [negb andb]. destruct xg, qg; try discriminate; simpl in Hg; discriminate.
Qed.
