(** Property C159: the change of the shape parameter reported by the accelerated life test fitters. *)
From Coquelicot Require Import Coquelicot.
From Coq Require Import String.
From Coq Require Import List Arith Reals Lra Lia Bool ZArith.
From Verif Require Import Base RealFacts Ext RList ConvertModel RepairModel DistModel FitModel SelModel CIModel OtherModel ALTModel ALTSpec ALTProofs ALTProofs2 ALTProofs3 ALTProps ALTProps2
  RoundModel RoundSpec RoundProofs ShapeModel ShapeSpec.
Import ListNotations.
Open Scope R_scope.

Lemma change_loop_spec common : forall rows cells e,
  change_loop common rows cells e = (cells ++ map (fun row => fst (change_cell common (shape_for_change row))) rows,
    e || existsb (fun row => snd (change_cell common (shape_for_change row))) rows).
Proof.
  induction rows as [|row rows IH]; intros cells e; cbn [change_loop map existsb].
  - now rewrite app_nil_r, orb_false_r.
  - rewrite IH, <- app_assoc. cbn [app]. f_equal. destruct (snd (change_cell common (shape_for_change row))), e; reflexivity.
Qed.

Lemma column_nth d r i row : nth_error (a_change r) i = Some row ->
  nth_error (fst (shape_column d r)) i = Some (fst (change_cell (shape_of_model d (a_shape r)) (shape_for_change row))).
Proof.
  intros E. unfold shape_column. rewrite change_loop_spec. cbn [fst app]. rewrite nth_error_map, E. reflexivity.
Qed.

Lemma fitted_own row own : fitted_shape row own -> shape_for_change row = own.
Proof. intros (s & E). unfold shape_for_change. now rewrite E. Qed.

Lemma round2 x : IZR (rne (x * 100 * 10 ^ 2)) / 10 ^ 2 - x * 100 <= 5 / 1000 /\ - (5 / 1000) <= IZR (rne (x * 100 * 10 ^ 2)) / 10 ^ 2 - x * 100.
Proof.
  pose proof (rne_err (x * 100 * 10 ^ 2)) as H. apply Rabs_le_between in H.
  replace (10 ^ 2) with 100 in * by ring. lra.
Qed.

(** One row for each stress; the row of a stress at which no shape was fitted is left empty. *)
Theorem C159_rows d r : length (fst (shape_column d r)) = length (a_change r) /\
  forall i row, nth_error (a_change r) i = Some row -> h_original row = None -> nth_error (fst (shape_column d r)) i = Some None.
Proof.
  split.
  - unfold shape_column. rewrite change_loop_spec. cbn [fst app]. apply map_length.
  - intros i row E N. rewrite (column_nth d r i row E). unfold shape_for_change. rewrite N. unfold change_cell.
    destruct (Req_EM_T 0 0); [reflexivity|congruence].
Qed.
Print Assumptions C159_rows.

(** The percentage is the change from the shape fitted at that stress to the shape of the model, to two decimals: applying it
    to the former gives back the latter. The sign before it tells which is larger. *)
Theorem C159_value d r i row own : nth_error (a_change r) i = Some row -> fitted_shape row own -> 0 < own ->
  exists c v, nth_error (fst (shape_column d r)) i = Some (Some c) /\ says_percent c = Some v /\
    Rabs (own * (1 + v / 100) - shape_of_model d (a_shape r)) <= own * (5 / 100000) /\
    (plus_sign c = true <-> own < shape_of_model d (a_shape r)) /\ (plus_sign c = true -> 0 <= v) /\ (plus_sign c = false -> v <= 0).
Proof.
  intros E F P. rewrite (column_nth d r i row E). rewrite (fitted_own row own F). set (common := shape_of_model d (a_shape r)).
  unfold change_cell. destruct (Req_EM_T own 0) as [|N]; [lra|]. cbn [fst].
  set (x := shape_diff common own). pose proof (round2 x) as [R1 R2].
  set (v := IZR (rne (x * 100 * 10 ^ 2)) / 10 ^ 2) in *.
  assert (common = own * (1 + x)) as EC by (unfold x, shape_diff; field; exact N).
  assert (0 < x <-> own < common) as SG.
  { rewrite EC. split; intros H; [assert (0 < own * x) by (apply Rmult_lt_0_compat; lra); lra|].
    destruct (Rlt_le_dec 0 x) as [|L]; [assumption|]. assert (own * x <= own * 0) by (apply Rmult_le_compat_l; lra). lra. }
  exists (if Rlt_dec 0 x then {| plus_sign := true; digits := Places 2 (rne (x * 100 * 10 ^ 2)) |} else {| plus_sign := false; digits := Places 2 (rne (x * 100 * 10 ^ 2)) |}), v.
  split; [reflexivity|]. split; [destruct (Rlt_dec 0 x); reflexivity|]. split; [|split; [|split]].
  - replace (own * (1 + v / 100) - common) with (own * ((v - x * 100) / 100)) by (rewrite EC; field).
    rewrite Rabs_mult, (Rabs_pos_eq own) by lra. apply Rmult_le_compat_l; [lra|]. apply Rabs_le. lra.
  - rewrite <- SG. destruct (Rlt_dec 0 x) as [H|H]; cbn [plus_sign]; split; intros K; auto; try discriminate K; contradiction.
  - destruct (Rlt_dec 0 x) as [H|H]; cbn [plus_sign]; [intros _|discriminate].
    unfold v. apply Rmult_le_pos; [|simpl; lra]. apply (IZR_le 0). replace 0%Z with (rne (IZR 0)) by apply rne_IZR. apply rne_mono. simpl. lra.
  - destruct (Rlt_dec 0 x) as [H|H]; cbn [plus_sign]; [discriminate|intros _].
    assert (IZR (rne (x * 100 * 10 ^ 2)) <= 0).
    { apply (IZR_le _ 0). replace 0%Z with (rne (IZR 0)) by apply rne_IZR. apply rne_mono. simpl. lra. }
    unfold v. assert (0 < / 10 ^ 2) by (simpl; lra). unfold Rdiv. 
    rewrite <- (Rmult_0_l (/ 10 ^ 2)). apply Rmult_le_compat_r; lra.
Qed.
Print Assumptions C159_value.

Lemma half_iff own common : 0 < own -> (shape_change_threshold < Rabs (shape_diff common own) <-> changed_by_half own common).
Proof.
  intros P. unfold changed_by_half, shape_change_threshold. set (x := shape_diff common own).
  assert (common = own * (1 + x)) as EC by (unfold x, shape_diff; field; lra). clearbody x. subst common.
  split; intros H.
  - unfold Rabs in H. destruct (Rcase_abs x) as [L|L]; [left|right].
    + assert (own * x < own * - (5 / 10)) by (apply Rmult_lt_compat_l; lra). lra.
    + assert (own * (5 / 10) < own * x) by (apply Rmult_lt_compat_l; lra). lra.
  - destruct H as [H|H].
    + assert (x < - (5 / 10)). { apply Rmult_lt_reg_l with own; [exact P|]. lra. } rewrite Rabs_left; lra.
    + assert (5 / 10 < x). { apply Rmult_lt_reg_l with own; [exact P|]. lra. } rewrite Rabs_pos_eq; lra.
Qed.

(** The warning is printed exactly if the shape of the model is more than half away from the one fitted at some stress. *)
Theorem C159_warning d r : (forall row own, In row (a_change r) -> fitted_shape row own -> 0 < own) ->
  (snd (shape_column d r) = true <->
   exists row own, In row (a_change r) /\ fitted_shape row own /\ changed_by_half own (shape_of_model d (a_shape r))).
Proof.
  intros HP. unfold shape_column. rewrite change_loop_spec. cbn [snd orb]. rewrite existsb_exists. split.
  - intros (row & Hin & H). exists row. unfold shape_for_change in H. destruct (h_original row) as [[s own]|] eqn:E.
    2:{ unfold change_cell in H. destruct (Req_EM_T 0 0); [discriminate H|congruence]. }
    exists own. assert (fitted_shape row own) as F by (exists s; exact E). split; [exact Hin|]. split; [exact F|].
    cbn [snd] in H. unfold change_cell in H. destruct (Req_EM_T own 0); [discriminate H|]. cbn [snd] in H.
    apply half_iff; [exact (HP row own Hin F)|]. destruct (Rlt_dec _ _) as [L|]; [exact L|discriminate H].
  - intros (row & own & Hin & F & H). exists row. split; [exact Hin|]. rewrite (fitted_own row own F). pose proof (HP row own Hin F) as P.
    unfold change_cell. destruct (Req_EM_T own 0); [lra|]. cbn [snd]. apply half_iff in H; [|exact P].
    destruct (Rlt_dec _ _) as [|N]; [reflexivity|]. exfalso. apply N. exact H.
Qed.
Print Assumptions C159_warning.

(** Without a warning all percentages shown are between -50 and 50. *)
Theorem C159_quiet d r i row own : (forall row own, In row (a_change r) -> fitted_shape row own -> 0 < own) ->
  snd (shape_column d r) = false -> nth_error (a_change r) i = Some row -> fitted_shape row own ->
  exists c v, nth_error (fst (shape_column d r)) i = Some (Some c) /\ says_percent c = Some v /\ -50 <= v <= 50.
Proof.
  intros HP W E F. pose proof (nth_error_In _ _ E) as Hin. pose proof (HP row own Hin F) as P.
  rewrite (column_nth d r i row E), (fitted_own row own F). set (common := shape_of_model d (a_shape r)).
  unfold change_cell. destruct (Req_EM_T own 0); [lra|]. cbn [fst]. set (x := shape_diff common own).
  exists (if Rlt_dec 0 x then {| plus_sign := true; digits := Places 2 (rne (x * 100 * 10 ^ 2)) |} else {| plus_sign := false; digits := Places 2 (rne (x * 100 * 10 ^ 2)) |}), (IZR (rne (x * 100 * 10 ^ 2)) / 10 ^ 2).
  split; [reflexivity|]. split; [destruct (Rlt_dec 0 x); reflexivity|].
  assert (Rabs x <= 5 / 10) as B.
  { destruct (Rle_dec (Rabs x) (5 / 10)) as [|N]; [assumption|]. exfalso.
    assert (snd (shape_column d r) = true); [|congruence]. apply C159_warning; [exact HP|]. exists row, own. split; [exact Hin|]. split; [exact F|].
    apply half_iff; [exact P|]. unfold shape_change_threshold. fold common. fold x. lra. }
  apply Rabs_le_between in B.
  assert (IZR (-5000) <= IZR (rne (x * 100 * 10 ^ 2)) <= IZR 5000) as [L U].
  { replace (10 ^ 2) with 100 by ring. split; apply IZR_le.
    - replace (-5000)%Z with (rne (IZR (-5000))) by apply rne_IZR. apply rne_mono. lra.
    - replace 5000%Z with (rne (IZR 5000)) by apply rne_IZR. apply rne_mono. lra. }
  replace (10 ^ 2) with 100 in * by ring. lra.
Qed.
Print Assumptions C159_quiet.

(** The Exponential models: the warning depends on the Weibull shapes of the stresses alone, not on what is estimated. *)
Theorem C159_exponential r r' : a_change r' = a_change r ->
  shape_column A_Exponential r' = shape_column A_Exponential r /\
  ((forall row own, In row (a_change r) -> fitted_shape row own -> 0 < own) ->
   (snd (shape_column A_Exponential r) = false <-> forall row own, In row (a_change r) -> fitted_shape row own -> 2 / 3 <= own <= 2)).
Proof.
  intros E. split; [unfold shape_column, common_column; now rewrite E|]. intros HP. split.
  - intros W row own Hin F. pose proof (HP row own Hin F). destruct (Rlt_le_dec own (2 / 3)) as [L|L], (Rlt_le_dec 2 own) as [L'|L']; try lra; exfalso;
      (assert (snd (shape_column A_Exponential r) = true); [|congruence]); apply C159_warning; auto; exists row, own; (split; [exact Hin|]); (split; [exact F|]);
      unfold changed_by_half, shape_of_model; [right|left]; lra.
  - intros H. destruct (snd (shape_column A_Exponential r)) eqn:W; [|reflexivity]. apply C159_warning in W; [|exact HP].
    destruct W as (row & own & Hin & F & C). specialize (H row own Hin F). unfold changed_by_half, shape_of_model in C. lra.
Qed.
Print Assumptions C159_exponential.

(** The percentages shown do not decide the warning, which says "(>50%)": it is also printed with +50.0% as the largest change. *)
Theorem C159_boundary : exists r c, snd (shape_column A_Weibull r) = true /\ fst (shape_column A_Weibull r) = [Some c] /\ says_percent c = Some 50.
Proof.
  set (row := {| h_stress := (1, 0); h_original := Some (1, 1); h_life := 1; h_AF := None |}).
  set (r := {| a_params := {| l_0 := 1; l_1 := 1; l_2 := 0 |}; a_shape := 1500001 / 1000000; a_success := true; a_optimizer := None; a_limits := [];
    a_gof := goodness 3 3 0; a_use := None; a_change := [row] |}).
  assert (rne ((1500001 / 1000000 - 1) / 1 * 100 * 10 ^ 2) = 5000%Z) as ER.
  { apply rne_near. replace ((1500001 / 1000000 - 1) / 1 * 100 * 10 ^ 2 - IZR 5000) with (1 / 100) by (simpl; field). rewrite Rabs_pos_eq; lra. }
  exists r, {| plus_sign := true; digits := Places 2 5000 |}.
  assert (shape_column A_Weibull r = ([Some {| plus_sign := true; digits := Places 2 5000 |}], true)) as ->; [|split; [reflexivity|split; [reflexivity|]]; unfold says_percent; cbn [digits says]; f_equal; replace (10 ^ 2) with 100 by ring; lra].
  unfold shape_column. cbn [a_change r change_loop app common_column a_shape shape_for_change h_original row snd]. unfold change_cell.
  destruct (Req_EM_T 1 0) as [Z|_]; [lra|]. unfold shape_diff. rewrite ER. cbn [fst snd].
  destruct (Rlt_dec 0 ((1500001 / 1000000 - 1) / 1)) as [_|N]; [|lra].
  destruct (Rlt_dec shape_change_threshold (Rabs ((1500001 / 1000000 - 1) / 1))) as [_|N]; [reflexivity|].
  exfalso. apply N. unfold shape_change_threshold. rewrite Rabs_pos_eq; lra.
Qed.
Print Assumptions C159_boundary.

(** The stresses left empty are those with one failure. *)
Theorem C159_blank kle d m noisy fit2P minimize diag a r f rc i row : total_order kle -> alt_fit kle d m noisy fit2P minimize diag a = Ok r -> data_of (dual_stress m) a f rc ->
  (forall n g c, 0 < snd (fit2P n g c)) -> nth_error (a_change r) i = Some row ->
  (nth_error (fst (shape_column d r)) i = Some None <->
   (length (filter (fun it => if Rpair_dec (snd it) (h_stress row) then true else false) f) <= 1)%nat).
Proof.
  intros Ho H D HP E. pose proof (C106_original kle d m noisy fit2P minimize diag a r f rc Ho H D row (nth_error_In _ _ E)) as K. cbv zeta in K. rewrite map_length in K.
  destruct K as [[L N]|[L (c & N)]]; (split; intros B).
  - exact L.
  - exact (proj2 (C159_rows d r) i row E N).
  - exfalso. destruct (C159_value d r i row (snd (fit2P (fitted_alone d) (map fst (filter (fun it => if Rpair_dec (snd it) (h_stress row) then true else false) f)) c)) E) as (x & v & E2 & _).
    + eexists. rewrite N. apply f_equal. apply surjective_pairing.
    + apply HP.
    + congruence.
  - exfalso. lia.
Qed.
Print Assumptions C159_blank.

Example C159_case kle d m noisy minimize diag : total_order kle -> dual_stress m = false -> (forall est, diag est <> None) ->
  exists r f rc, alt_fit kle d m noisy (fun _ _ _ => (10, 2)) minimize diag demo_short = Ok r /\ data_of (dual_stress m) demo_short f rc /\
    (forall row own, In row (a_change r) -> fitted_shape row own -> 0 < own).
Proof.
  intros Ho Hd HD. destruct (demo_short_fitted kle d m noisy (fun _ _ _ => (10, 2)) minimize diag Ho Hd HD) as [r Hr].
  assert (exists f rc, data_of (dual_stress m) demo_short f rc) as (f & rc & D) by (rewrite Hd; do 2 eexists; exact demo_short_data).
  exists r, f, rc. split; [exact Hr|]. split; [exact D|]. intros row own Hin (s & E).
  destruct (C106_original kle d m noisy _ minimize diag _ r f rc Ho Hr D row Hin) as [[_ N]|[_ (c & N)]]; [congruence|].
  assert (own = 2) as -> by congruence. lra.
Qed.
