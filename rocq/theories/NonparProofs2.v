(** Kaplan-Meier, Nelson-Aalen and rank adjustment. *)
From Coq Require Import List Arith Reals Bool Permutation Sorted Lra Lia.
From Verif Require Import Base Ext Gauss NonparModel NonparSpec NonparProofs.
Import ListNotations.
Open Scope R_scope.

(** * Estimates *)
Fixpoint km_est (codes : list bool) (prev : R) : list R :=
  match codes with
  | [] => []
  | c :: rest =>
      let r := INR (S (length rest)) in
      let km := (r - NonparModel.code c) / r * prev in
      km :: km_est rest km
  end.

Lemma km_loop_est z rows : forall prev sf d,
  map e_est (km_loop z rows prev sf d) = km_est (map snd rows) prev.
Proof.
  induction rows as [|[t c] rest IH]; intros prev sf d; [reflexivity|].
  cbn [km_loop map km_est snd]. rewrite map_length.
  destruct c; [destruct (greenwood _ _ _ _)|]; cbn [map e_est]; now rewrite IH.
Qed.

Lemma km_loop_rows z rows : forall prev sf d,
  map (fun e => (e_time e, e_code e)) (km_loop z rows prev sf d) = rows.
Proof.
  induction rows as [|[t c] rest IH]; intros prev sf d; [reflexivity|].
  cbn [km_loop]. destruct c; [destruct (greenwood _ _ _ _)|]; cbn [map e_time e_code]; now rewrite IH.
Qed.

Lemma km_loop_length z rows prev sf d : length (km_loop z rows prev sf d) = length rows.
Proof. rewrite <- (map_length (fun e => (e_time e, e_code e))). now rewrite km_loop_rows. Qed.

Lemma km_est_length codes : forall prev, length (km_est codes prev) = length codes.
Proof. induction codes; intros; simpl; auto. Qed.

Lemma km_factor_range c m : 0 <= (INR (S m) - NonparModel.code c) / INR (S m) <= 1.
Proof.
  rewrite S_INR. pose proof (pos_INR m) as H. unfold NonparModel.code. split.
  - apply Rmult_le_pos; [destruct c; lra|]. left. apply Rinv_0_lt_compat. lra.
  - apply Rmult_le_reg_r with (INR m + 1); [lra|]. unfold Rdiv.
    rewrite Rmult_assoc, Rinv_l by lra. destruct c; lra.
Qed.

Lemma km_est_range codes : forall prev, 0 <= prev ->
  Forall (fun x => 0 <= x <= prev) (km_est codes prev) /\ non_increasing (km_est codes prev).
Proof.
  induction codes as [|c codes IH]; intros prev Hp; [split; constructor|].
  cbn [km_est]. pose proof (km_factor_range c (length codes)) as Hf.
  set (q := _ / _ * prev).
  assert (0 <= q <= prev) as Hq. { unfold q. nra. }
  destruct (IH q (proj1 Hq)) as [F S].
  split.
  - constructor; [assumption|]. eapply Forall_impl; [|exact F]. simpl. intros. lra.
  - constructor; [assumption|]. eapply Forall_impl; [|exact F]. simpl. intros. lra.
Qed.

Lemma km_est_zero pre c post : forall prev, 0 < prev ->
  nth (length pre) (km_est (pre ++ c :: post) prev) 1 = 0 <-> post = [] /\ c = true.
Proof.
  induction pre as [|b pre IH]; intros prev Hp; cbn [app km_est length nth].
  - rewrite S_INR. pose proof (pos_INR (length post)) as H.
    split.
    + intros E. apply Rmult_integral in E as [E|E]; [|lra].
      apply Rmult_integral in E as [E|E].
      2:{ assert (0 < / (INR (length post) + 1)) by (apply Rinv_0_lt_compat; lra). lra. }
      destruct c; simpl in E; [|lra]. split; [|reflexivity].
      destruct post as [|b post]; [reflexivity|]. cbn [length] in *. rewrite S_INR in *.
      pose proof (pos_INR (length post)). lra.
    + intros [-> ->]. simpl. field.
  - apply IH. apply Rmult_lt_0_compat; [|assumption].
    rewrite app_length. cbn [length]. rewrite S_INR, plus_INR, S_INR.
    pose proof (pos_INR (length pre)). pose proof (pos_INR (length post)).
    apply Rdiv_lt_0_compat; [destruct b; simpl; lra|lra].
Qed.


Lemma km_est_all_failed s n : (s <= n)%nat -> forall prev, prev = INR s / INR n -> (0 < n)%nat ->
  km_est (repeat true s) prev = map (fun i => (INR s - INR i) / INR n) (seq 1 s).
Proof.
  intros Hsn. induction s as [|s IH]; intros prev Hp Hn; [reflexivity|].
  cbn [repeat km_est]. rewrite repeat_length.
  assert (0 < INR n) by now apply lt_0_INR.
  assert ((INR (S s) - NonparModel.code true) / INR (S s) * prev = INR s / INR n) as E.
  { rewrite Hp, S_INR. pose proof (pos_INR s). simpl. field. lra. }
  rewrite E. rewrite (IH ltac:(lia) _ eq_refl Hn).
  cbn [seq map]. f_equal.
  - rewrite S_INR. simpl. f_equal. ring.
  - rewrite <- (seq_shift s 1), map_map. apply map_ext. intros i. rewrite !S_INR. f_equal. ring.
Qed.

(** * The product limit estimator *)
Fixpoint kmF (k : nat) (pre : list row) : R :=
  match pre with
  | [] => 1
  | (t, c) :: s =>
      let r := INR (S (length s + k)) in (r - NonparModel.code c) / r * kmF k s
  end.

Lemma km_est_prefix pre post : forall prev,
  nth (length pre) (prev :: km_est (map snd (pre ++ post)) prev) 1 = kmF (length post) pre * prev.
Proof.
  induction pre as [|[t c] pre IH]; intros prev; [simpl; ring|].
  cbn [app map km_est snd length kmF].
  set (q := _ / _ * prev).
  change (nth (S (length pre)) (prev :: q :: km_est (map snd (pre ++ post)) q) 1)
    with (nth (length pre) (q :: km_est (map snd (pre ++ post)) q) 1).
  rewrite IH. unfold q. rewrite map_length, app_length. ring.
Qed.

Definition kmQ (k : nat) (pre : list row) : R :=
  prod (map (fun tj => 1 - INR (deaths pre tj) / INR (at_risk pre tj + k))
         (nodup Req_EM_T (map fst (filter snd pre)))).

Lemma prod_perm l1 l2 : Permutation l1 l2 -> prod l1 = prod l2.
Proof. induction 1; simpl; try congruence. ring. Qed.

Lemma at_risk_all (rows : list row) (t : R) : (forall r, In r rows -> t <= fst r) -> at_risk rows t = length rows.
Proof.
  unfold at_risk. induction rows as [|r rows IH]; intros H; simpl; [reflexivity|].
  destruct (Rle_dec t (fst r)) as [L|L]; [|exfalso; apply L, H; now left].
  simpl. f_equal. apply IH. intros; apply H; now right.
Qed.

Lemma at_risk_cons_lt r rows t : fst r < t -> at_risk (r :: rows) t = at_risk rows t.
Proof. intros H. unfold at_risk. simpl. destruct (Rle_dec t (fst r)); [lra|reflexivity]. Qed.

Lemma deaths_cons_neq r rows t : fst r <> t \/ snd r = false -> deaths (r :: rows) t = deaths rows t.
Proof.
  intros H. unfold deaths. simpl. destruct (snd r) eqn:E; simpl; [|reflexivity].
  destruct (Req_EM_T (fst r) t); [|reflexivity]. destruct H; congruence.
Qed.

Lemma prod_map_ext {A} (g h : A -> R) l :
  (forall x, In x l -> g x = h x) -> prod (map g l) = prod (map h l).
Proof. intros H. f_equal. now apply map_ext_in. Qed.

Lemma deaths_none (rows : list row) (t : R) : ~ In (t, true) rows -> deaths rows t = 0%nat.
Proof.
  unfold deaths. induction rows as [|[s c] rows IH]; simpl; intros H; [reflexivity|].
  destruct c; simpl; [|apply IH; tauto].
  destruct (Req_EM_T s t) as [->|N]; [tauto|]. apply IH. tauto.
Qed.

Lemma in_failure_times (rows : list row) (t : R) : In t (map fst (filter snd rows)) <-> In (t, true) rows.
Proof.
  rewrite in_map_iff. split.
  - intros ([s c] & <- & H). apply filter_In in H as [H E]. simpl in *. now subst.
  - intros H. exists (t, true). split; [reflexivity|]. apply filter_In. auto.
Qed.

Lemma failures_first_tail r rows : failures_first (r :: rows) -> failures_first rows.
Proof. intros H pre t post E. apply (H (r :: pre) t post). now rewrite E. Qed.

Lemma remove_perm (x : R) l : NoDup l -> In x l -> Permutation l (x :: remove Req_EM_T x l).
Proof.
  intros HN Hx. apply NoDup_Permutation; [assumption| |].
  - constructor; [apply remove_In|]. clear Hx. induction HN as [|y l Hy HN IH]; simpl; [constructor|].
    destruct (Req_EM_T x y); [assumption|]. constructor; [|assumption].
    intros H. apply in_remove in H. tauto.
  - intros y. simpl. split.
    + intros H. destruct (Req_EM_T x y); [now left|]. right. apply in_in_remove; congruence.
    + intros [<-|H]; [assumption|]. now apply in_remove in H.
Qed.

Lemma kmF_kmQ k pre :
  StronglySorted (fun r s => fst r <= fst s) pre -> failures_first pre -> kmF k pre = kmQ k pre.
Proof.
  induction pre as [|[t c] s IH]; intros HS HF; [reflexivity|].
  inversion HS as [|? ? HS' Ht]; subst. rewrite Forall_forall in Ht. simpl in Ht.
  specialize (IH HS' (failures_first_tail _ _ HF)).
  cbn [kmF]. rewrite IH. unfold kmQ. cbn [filter snd].
  destruct c.
  - cbn [map fst nodup]. destruct (in_dec Req_EM_T t (map fst (filter snd s))) as [Hin|Hout].
    + set (L := nodup Req_EM_T (map fst (filter snd s))).
      assert (Permutation L (t :: remove Req_EM_T t L)) as P.
      { apply remove_perm; [apply NoDup_nodup|now apply nodup_In]. }
      rewrite !(prod_perm _ _ (Permutation_map _ P)). cbn [map prod fold_right].
      fold (prod (map (fun tj => 1 - INR (deaths s tj) / INR (at_risk s tj + k)) (remove Req_EM_T t L))).
      fold (prod (map (fun tj => 1 - INR (deaths ((t, true) :: s) tj) / INR (at_risk ((t, true) :: s) tj + k)) (remove Req_EM_T t L))).
      rewrite (prod_map_ext (fun tj => 1 - INR (deaths ((t, true) :: s) tj) / INR (at_risk ((t, true) :: s) tj + k))
                 (fun tj => 1 - INR (deaths s tj) / INR (at_risk s tj + k))).
      2:{ intros x Hx. apply in_remove in Hx as [Hx Nx]. unfold L in Hx. apply nodup_In in Hx.
          apply in_failure_times in Hx. apply Ht in Hx as Hle. simpl in Hle.
          rewrite deaths_cons_neq by (left; simpl; congruence).
          rewrite at_risk_cons_lt; [reflexivity|]. simpl. destruct Hle; [assumption|congruence]. }
      rewrite <- Rmult_assoc. f_equal.
      rewrite at_risk_all by (intros r Hr; auto).
      rewrite at_risk_all by (intros r [<-|Hr]; [simpl; lra|auto]).
      assert (deaths ((t, true) :: s) t = S (deaths s t)) as ->.
      { unfold deaths. simpl. destruct (Req_EM_T t t); [reflexivity|congruence]. }
      cbn [length]. change (S (length s) + k)%nat with (S (length s + k)). rewrite !S_INR.
      assert (0 < INR (length s + k)) as Hpos.
      { apply lt_0_INR. apply in_failure_times in Hin. destruct s; [destruct Hin|simpl; lia]. }
      simpl. field. lra.
    + cbn [map prod fold_right].
      fold (prod (map (fun tj => 1 - INR (deaths ((t, true) :: s) tj) / INR (at_risk ((t, true) :: s) tj + k)) (nodup Req_EM_T (map fst (filter snd s))))).
      rewrite (prod_map_ext (fun tj => 1 - INR (deaths ((t, true) :: s) tj) / INR (at_risk ((t, true) :: s) tj + k))
                 (fun tj => 1 - INR (deaths s tj) / INR (at_risk s tj + k))).
      2:{ intros x Hx. apply nodup_In in Hx.
          assert (x <> t) as Nx by (intros ->; contradiction).
          apply in_failure_times in Hx. apply Ht in Hx as Hle. simpl in Hle.
          rewrite deaths_cons_neq by (left; simpl; congruence).
          rewrite at_risk_cons_lt; [reflexivity|]. simpl. destruct Hle; [assumption|congruence]. }
      f_equal.
      rewrite at_risk_all by (intros r [<-|Hr]; [simpl; lra|auto]).
      assert (deaths ((t, true) :: s) t = 1%nat) as ->.
      { unfold deaths. simpl. destruct (Req_EM_T t t); [|congruence]. simpl. f_equal.
        apply deaths_none. intros H. apply Hout. now apply in_failure_times. }
      cbn [length]. change (S (length s) + k)%nat with (S (length s + k)). rewrite !S_INR.
      pose proof (pos_INR (length s + k)). simpl. field. lra.
  - rewrite (prod_map_ext (fun tj => 1 - INR (deaths ((t, false) :: s) tj) / INR (at_risk ((t, false) :: s) tj + k))
                 (fun tj => 1 - INR (deaths s tj) / INR (at_risk s tj + k))).
    2:{ intros x Hx. apply nodup_In in Hx. apply in_failure_times in Hx.
        assert (x <> t) as Nx. { intros ->. now apply (HF [] t s eq_refl). }
        apply Ht in Hx as Hle. simpl in Hle.
        rewrite deaths_cons_neq by now right.
        rewrite at_risk_cons_lt; [reflexivity|]. simpl. destruct Hle; [assumption|congruence]. }
    rewrite S_INR. pose proof (pos_INR (length s + k)). simpl. field. lra.
Qed.

Lemma filter_perm {A} (p : A -> bool) l1 l2 :
  Permutation l1 l2 -> Permutation (filter p l1) (filter p l2).
Proof.
  induction 1; simpl; auto.
  - destruct (p x); auto.
  - destruct (p x), (p y); auto. constructor.
  - etransitivity; eassumption.
Qed.

Lemma at_risk_perm d1 d2 t : Permutation d1 d2 -> at_risk d1 t = at_risk d2 t.
Proof. intros P. apply Permutation_length. now apply filter_perm. Qed.
Lemma deaths_perm d1 d2 t : Permutation d1 d2 -> deaths d1 t = deaths d2 t.
Proof. intros P. apply Permutation_length. now apply filter_perm. Qed.

Lemma nodup_perm l1 l2 : Permutation l1 l2 -> Permutation (nodup Req_EM_T l1) (nodup Req_EM_T l2).
Proof.
  intros P. apply NoDup_Permutation; try apply NoDup_nodup. intros x. rewrite !nodup_In.
  split; apply Permutation_in; [assumption|now symmetry].
Qed.

Lemma product_limit_perm d1 d2 t : Permutation d1 d2 -> product_limit d1 t = product_limit d2 t.
Proof.
  intros P. unfold product_limit.
  rewrite (prod_map_ext _ (fun tj => 1 - INR (deaths d2 tj) / INR (at_risk d2 tj))).
  2:{ intros x _. now rewrite (at_risk_perm d1 d2 x P), (deaths_perm d1 d2 x P). }
  apply prod_perm, Permutation_map, nodup_perm, filter_perm, Permutation_map, filter_perm, P.
Qed.

Lemma filter_all {A} (p : A -> bool) l : (forall x, In x l -> p x = true) -> filter p l = l.
Proof.
  induction l as [|x l IH]; intros H; simpl; [reflexivity|]. rewrite (H x) by now left.
  f_equal. apply IH. intros; apply H; now right.
Qed.
Lemma filter_none {A} (p : A -> bool) l : (forall x, In x l -> p x = false) -> filter p l = [].
Proof.
  induction l as [|x l IH]; intros H; simpl; [reflexivity|]. rewrite (H x) by now left.
  apply IH. intros; apply H; now right.
Qed.

Lemma product_limit_split pre post t :
  (forall r, In r pre -> fst r <= t) -> (forall r, In r post -> t < fst r) ->
  product_limit (pre ++ post) t = kmQ (length post) pre.
Proof.
  intros H1 H2. unfold product_limit, kmQ.
  rewrite filter_app, map_app, filter_app.
  rewrite (filter_all _ (map fst (filter snd pre))).
  2:{ intros x Hx. apply in_failure_times, H1 in Hx. simpl in Hx. destruct (Rle_dec x t); [reflexivity|contradiction]. }
  rewrite (filter_none _ (map fst (filter snd post))).
  2:{ intros x Hx. apply in_failure_times, H2 in Hx. simpl in Hx. destruct (Rle_dec x t); [lra|reflexivity]. }
  rewrite app_nil_r. apply prod_map_ext. intros x Hx. apply nodup_In, in_failure_times in Hx.
  apply H1 in Hx as Hle. simpl in Hle.
  assert (deaths (pre ++ post) x = deaths pre x) as ->.
  { unfold deaths. rewrite filter_app, app_length. rewrite (filter_none _ post); [simpl; lia|].
    intros r Hr. apply H2 in Hr. destruct (Req_EM_T (fst r) x); [lra|]. apply andb_false_r. }
  assert (at_risk (pre ++ post) x = (at_risk pre x + length post)%nat) as ->; [|reflexivity].
  unfold at_risk. rewrite filter_app, app_length. f_equal. f_equal. apply filter_all.
  intros r Hr. apply H2 in Hr. destruct (Rle_dec x (fst r)); [reflexivity|lra].
Qed.

Lemma StronglySorted_app_l {A} (R : A -> A -> Prop) l1 l2 :
  StronglySorted R (l1 ++ l2) -> StronglySorted R l1.
Proof.
  induction l1 as [|x l1 IH]; simpl; intros H; [constructor|]. inversion H; subst.
  constructor; [auto|]. rewrite Forall_app in *. tauto.
Qed.

Lemma kaplan_meier_product_limit CI data pre post es t :
  is_sorting_of data (pre ++ post) -> failures_first (pre ++ post) ->
  (forall r, In r pre -> fst r <= t) -> (forall r, In r post -> t < fst r) ->
  kaplan_meier CI (pre ++ post) = Ok es ->
  nth (length pre) (1 :: map e_est es) 1 = product_limit data t.
Proof.
  intros [HP HS] HF H1 H2. unfold kaplan_meier.
  destruct (np_checks _ _); cbn [bind]; [|discriminate]. intros E. injection E as <-.
  rewrite km_loop_est, km_est_prefix, Rmult_1_r.
  rewrite (product_limit_perm _ _ t HP), (product_limit_split _ _ t H1 H2).
  apply kmF_kmQ; [eauto using StronglySorted_app_l|].
  intros p s q E. intros Hin. apply (HF p s (q ++ post)).
  - rewrite E, <- app_assoc. reflexivity.
  - apply in_or_app. now left.
Qed.

(** * Confidence limits *)
Definition enonneg (e : ext) : Prop := match e with Fin d => 0 <= d | PInf => True | NaN => False end.
Definition epos (e : ext) : Prop := match e with Fin d => 0 < d | PInf => True | NaN => False end.

Lemma clip_brackets est d : 0 <= est <= 1 -> enonneg d -> brackets (clip_lower est d) est (clip_upper est d).
Proof.
  intros He Hd. destruct d as [d| |]; simpl in *; [| |contradiction].
  - exists (if Rlt_dec (est - d) 0 then 0 else est - d), (if Rlt_dec 1 (est + d) then 1 else est + d).
    destruct (Rlt_dec (est - d) 0), (Rlt_dec 1 (est + d)); repeat split; lra.
  - exists 0, 1. repeat split; lra.
Qed.

Lemma z_nonneg CI : 0 <= CI <= 1 -> enonneg (z_of_CI CI).
Proof.
  intros H. unfold z_of_CI. destruct (Rlt_dec CI 1); simpl; [|trivial]. apply norm_ppf_nonneg. lra.
Qed.
Lemma z_pos CI : 0 < CI <= 1 -> epos (z_of_CI CI).
Proof.
  intros H. unfold z_of_CI. destruct (Rlt_dec CI 1); simpl; [|trivial]. apply norm_ppf_pos. lra.
Qed.

Lemma greenwood_fin z risk est s : 0 <= s -> enonneg z -> (2 <= risk)%nat ->
  exists s' d, greenwood z risk est (Fin s) = (Fin s', d) /\ 0 <= s' /\ enonneg d.
Proof.
  intros Hs Hz Hr. unfold greenwood.
  assert (2 <= INR risk) as Hr2 by (apply (le_INR 2); assumption).
  assert (0 < INR risk * (INR risk - 1)) as Hp by nra.
  unfold einv. destruct (Req_EM_T (INR risk * (INR risk - 1)) 0) as [E|_]; [lra|].
  set (f := / (INR risk * (INR risk - 1))).
  assert (0 < f) as Hf by (unfold f; now apply Rinv_0_lt_compat).
  simpl. eexists _, _. split; [reflexivity|]. split; [lra|].
  destruct (Rlt_dec 0 (est * est)) as [L|L]; [|simpl; lra]. simpl.
  assert (0 < sqrt ((s + f) * (est * est))) as Hq. { apply sqrt_lt_R0. apply Rmult_lt_0_compat; lra. }
  destruct z as [z| |]; simpl in *.
  - apply Rmult_le_pos; lra.
  - destruct (Req_EM_T _ 0); simpl; [lra|trivial].
  - contradiction.
Qed.

Lemma greenwood_zero z risk s : exists s', greenwood z risk 0 (Fin s) = (s', Fin 0).
Proof.
  unfold greenwood. destruct (Rlt_dec 0 (0 * 0)); [lra|]. eauto.
Qed.

Lemma greenwood_last z est s : 0 <= s -> epos z -> 0 < est ->
  exists s' d, greenwood z 1 est (Fin s) = (s', d) /\ enonneg d.
Proof.
  intros Hs Hz He. unfold greenwood, einv. simpl.
  destruct (Req_EM_T (1 * (1 - 1)) 0) as [E|E]; [|lra]. simpl.
  eexists _, _. split; [reflexivity|].
  destruct (Rlt_dec 0 (est * est)) as [L|L]; [|simpl; lra].
  destruct (Req_EM_T (est * est) 0); [lra|]. simpl.
  destruct z as [z| |]; simpl in *; [|trivial|contradiction].
  destruct (Req_EM_T z 0); simpl; [lra|trivial].
Qed.

Definition entry_ok (e : entry) : Prop := brackets (e_lower e) (e_est e) (e_upper e).

Lemma km_loop_ok z rows : enonneg z -> forall prev s d, 0 <= prev <= 1 -> 0 <= s -> enonneg d ->
  Forall entry_ok (km_loop z rows prev (Fin s) d).
Proof.
  intros Hz. induction rows as [|[t c] rest IH]; intros prev s d Hp Hs Hd; [constructor|].
  cbn [km_loop]. pose proof (km_factor_range c (length rest)) as Hf.
  set (q := _ / _ * prev). assert (0 <= q <= 1) as Hq by (unfold q; nra).
  destruct c.
  - destruct rest as [|r rest].
    + assert (q = 0) as E. { unfold q. simpl. field. }
      destruct (greenwood_zero z (S (length (@nil row))) s) as (s' & EG). rewrite E, EG.
      constructor; [|constructor]. apply clip_brackets; simpl; lra.
    + destruct (greenwood_fin z (S (length (r :: rest))) q s) as (s' & d' & EG & Hs' & Hd'); auto.
      { simpl. lia. }
      rewrite EG. constructor; [now apply clip_brackets|]. now apply IH.
  - constructor; [now apply clip_brackets|]. now apply IH.
Qed.

Lemma np_checks_ok CI n : np_checks CI n = Ok tt <-> 0 <= CI <= 1 /\ (2 <= n)%nat.
Proof.
  unfold np_checks. destruct (Rltb CI 0) eqn:E1; simpl.
  { apply Rltb_true in E1. split; [discriminate|lra]. }
  destruct (Rltb 1 CI) eqn:E2.
  { apply Rltb_true in E2. split; [discriminate|lra]. }
  apply Rltb_false in E1, E2.
  destruct (Nat.ltb_spec n 2); split; intros; try discriminate; try reflexivity; try lia.
  lra || (split; [lra|lia]).
Qed.

Lemma kaplan_meier_inv CI rows es : kaplan_meier CI rows = Ok es ->
  0 <= CI <= 1 /\ (2 <= n_failed rows)%nat /\ es = km_loop (z_of_CI CI) rows 1 (Fin 0) (Fin 0).
Proof.
  unfold kaplan_meier. destruct (np_checks CI _) as [[]|] eqn:E; simpl; [|discriminate].
  apply np_checks_ok in E as [E1 E2]. inversion 1; subst. auto.
Qed.

Lemma kaplan_meier_ok CI rows es : kaplan_meier CI rows = Ok es ->
  Forall entry_ok es /\ map (fun e => (e_time e, e_code e)) es = rows.
Proof.
  intros H. apply kaplan_meier_inv in H as (H1 & H2 & ->). split; [|apply km_loop_rows].
  apply km_loop_ok; simpl; try lra. now apply z_nonneg.
Qed.

(** * Step arrays *)
Inductive Forall3 {A B C} (R : A -> B -> C -> Prop) : list A -> list B -> list C -> Prop :=
| F3_nil : Forall3 R [] [] []
| F3_cons a b c l m n : R a b c -> Forall3 R l m n -> Forall3 R (a :: l) (b :: m) (c :: n).

Lemma Forall3_app {A B C} (R : A -> B -> C -> Prop) l1 m1 n1 l2 m2 n2 :
  Forall3 R l1 m1 n1 -> Forall3 R l2 m2 n2 -> Forall3 R (l1 ++ l2) (m1 ++ m2) (n1 ++ n2).
Proof. induction 1; simpl; [auto|]. intros. constructor; auto. Qed.

Lemma Forall3_length {A B C} (R : A -> B -> C -> Prop) l m n :
  Forall3 R l m n -> length l = length m /\ length l = length n.
Proof. induction 1; simpl; lia. Qed.

Lemma Forall3_nth {A B C} (R : A -> B -> C -> Prop) l m n : Forall3 R l m n ->
  forall k a b c, nth_error l k = Some a -> nth_error m k = Some b -> nth_error n k = Some c -> R a b c.
Proof.
  induction 1 as [|a b c l m n H HF IH]; intros [|k] a' b' c'; simpl; try discriminate.
  - congruence.
  - apply IH.
Qed.

Definition brk (x : R) (lo up : ext) : Prop := brackets lo x up.

Lemma removelast_cons2 {A} (a b : A) l : removelast (a :: b :: l) = a :: removelast (b :: l).
Proof. reflexivity. Qed.

Lemma step_loop_brackets : forall es prev, entry_ok prev -> Forall entry_ok es ->
  let '(xs, ys, ls, us) := step_loop prev es in
  length xs = length ys /\ Forall3 brk (removelast (e_est prev :: ys)) ls us.
Proof.
  induction es as [|e es IH]; intros prev Hp HF; cbn [step_loop].
  - split; [reflexivity|]. simpl. constructor.
  - inversion HF as [|? ? He HF']; subst. specialize (IH e He HF').
    destruct (step_loop e es) as [[[xs ys] ls] us]. destruct IH as [L F].
    destruct (Req_EM_T (e_est prev) (e_est e)) as [E|E]; cbn [step_append app].
    + split; [simpl; lia|]. rewrite removelast_cons2. constructor; [exact Hp|exact F].
    + split; [simpl; lia|]. rewrite !removelast_cons2. constructor; [exact Hp|].
      constructor; [exact Hp|exact F].
Qed.

Lemma last_cons_ne {A} (a : A) l d : l <> [] -> last (a :: l) d = last l d.
Proof. destruct l; [congruence|reflexivity]. Qed.

Lemma step_loop_nonempty e es prev :
  let '(xs, ys, ls, us) := step_loop prev (e :: es) in
  xs <> [] /\ ys <> [] /\ ls <> [] /\ us <> [].
Proof.
  cbn [step_loop]. destruct (step_loop e es) as [[[xs ys] ls] us].
  destruct (Req_EM_T _ _); simpl; repeat split; discriminate.
Qed.

Lemma step_loop_last : forall es prev, es <> [] ->
  exists pre p e, prev :: es = pre ++ [p; e] /\
  let '(xs, ys, ls, us) := step_loop prev es in
  forall d dr, last ls d = e_lower p /\ last us d = e_upper p /\ last ys dr = e_est e.
Proof.
  induction es as [|e es IH]; intros prev H; [congruence|].
  destruct es as [|e2 es].
  - exists [], prev, e. split; [reflexivity|]. cbn [step_loop].
    destruct (Req_EM_T _ _); simpl; auto.
  - destruct (IH e ltac:(discriminate)) as (pre & p & e' & Eq & HL).
    exists (prev :: pre), p, e'. split; [simpl; now rewrite <- Eq|].
    pose proof (step_loop_nonempty e2 es e) as NE.
    cbn [step_loop] in *. fold (step_loop e2 es) in *.
    remember (step_loop e (e2 :: es)) as S eqn:ES. cbn [step_loop] in ES. rewrite <- ES in *.
    destruct S as [[[xs ys] ls] us]. destruct NE as (N1 & N2 & N3 & N4).
    destruct (Req_EM_T (e_est prev) (e_est e)); cbn [step_append app]; intros d dr;
      specialize (HL d dr); rewrite ?last_cons_ne by (assumption || discriminate); assumption.
Qed.

Lemma brackets_one : brackets (Fin 1) 1 (Fin 1).
Proof. exists 1, 1. repeat split; lra. Qed.

Lemma removelast_length {A} (l : list A) : length (removelast l) = (length l - 1)%nat.
Proof.
  induction l as [|a l IH]; [reflexivity|]. destruct l; [reflexivity|].
  cbn [removelast length] in *. lia.
Qed.

Lemma nth_error_removelast {A} (l : list A) k : (S k < length l)%nat ->
  nth_error (removelast l) k = nth_error l k.
Proof.
  revert k. induction l as [|a l IH]; intros k H; [reflexivity|].
  destruct l as [|b l]; [simpl in H; lia|]. cbn [removelast]. destruct k; [reflexivity|].
  simpl. apply IH. simpl in *. lia.
Qed.

Lemma nth_error_last {A} (l : list A) (d : A) : l <> [] -> nth_error l (length l - 1) = Some (last l d).
Proof.
  induction l as [|a l IH]; intros H; [congruence|]. destruct l as [|b l]; [reflexivity|].
  specialize (IH ltac:(discriminate)). simpl in *. rewrite Nat.sub_0_r in IH. exact IH.
Qed.

Lemma step_arrays_spec es :
  Forall entry_ok es -> (2 <= length es)%nat ->
  (forall e, hd_error es = Some e -> e_code e = false -> e_est e = 1) ->
  let s := step_arrays es in
  length (st_x s) = length (st_SF s) /\ length (st_lower s) = length (st_SF s) /\
  length (st_upper s) = length (st_SF s) /\
  (forall k y lo up, (S k < length (st_SF s))%nat -> nth_error (st_SF s) k = Some y ->
     nth_error (st_lower s) k = Some lo -> nth_error (st_upper s) k = Some up ->
     brackets lo y up) /\
  exists pre p e, es = pre ++ [p; e] /\
    last (st_SF s) 1 = e_est e /\ last (st_lower s) NaN = e_lower p /\ last (st_upper s) NaN = e_upper p.
Proof.
  intros HF HL H1. destruct es as [|e es]; [simpl in HL; lia|].
  inversion HF as [|? ? He HF']; subst.
  assert (es <> []) as Hne by (destruct es; [simpl in HL; lia|discriminate]).
  pose proof (step_loop_brackets es e He HF') as HB.
  destruct (step_loop_last es e Hne) as (pre & p & e' & Eq & HLast).
  assert (let '(xs, ys, ls, us) := step_loop e es in
    xs <> [] /\ ys <> [] /\ ls <> [] /\ us <> []) as NE.
  { destruct es as [|e2 es]; [congruence|]. apply step_loop_nonempty. }
  unfold step_arrays.
  destruct (step_loop e es) as [[[xs ys] ls] us]. destruct HB as [LX F3]. destruct NE as (N1 & N2 & N3 & N4).
  assert (exists X Y L U,
    (if e_code e
     then step_append [e_time e; e_time e] [1; e_est e] [Fin 1; Fin 1] [Fin 1; Fin 1] (xs, ys, ls, us)
     else step_append [e_time e] [1] [Fin 1] [Fin 1] (xs, ys, ls, us)) = (X, Y, L, U) /\
    length X = length Y /\ Forall3 brk (removelast (1 :: Y)) L U /\ Y <> [] /\
    (forall d dr, last L d = last ls d /\ last U d = last us d /\ last Y dr = last ys dr)) as
    (X & Y & L & U & EQ & LXY & F3' & NY & HLst).
  { destruct (e_code e) eqn:Ec; cbn [step_append app]; eexists _, _, _, _; (split; [reflexivity|]).
    - split; [simpl; lia|]. split.
      + rewrite !removelast_cons2. constructor; [apply brackets_one|]. constructor; [apply brackets_one|].
        exact F3.
      + split; [discriminate|]. intros d dr. rewrite !last_cons_ne by (assumption || discriminate). auto.
    - split; [simpl; lia|]. split.
      + rewrite (H1 e eq_refl Ec) in F3. rewrite removelast_cons2. constructor; [apply brackets_one|exact F3].
      + split; [discriminate|]. intros d dr. rewrite !last_cons_ne by (assumption || discriminate). auto. }
  rewrite EQ. cbv zeta. unfold st_x, st_SF, st_lower, st_upper. cbn [fst snd].
  destruct (Forall3_length _ _ _ _ F3') as [LL LU]. rewrite removelast_length in LL, LU. cbn [length] in LL, LU.
  split; [simpl; lia|]. split; [rewrite app_length; simpl; lia|]. split; [rewrite app_length; simpl; lia|].
  split.
  - intros k y lo up Hk Hy Hlo Hup. cbn [length] in Hk.
    rewrite <- (nth_error_removelast (1 :: Y)) in Hy by (simpl; lia).
    rewrite nth_error_app1 in Hlo by lia. rewrite nth_error_app1 in Hup by lia.
    exact (Forall3_nth _ _ _ _ F3' k y lo up Hy Hlo Hup).
  - exists pre, p, e'. split; [exact Eq|].
    rewrite !last_last. specialize (HLst NaN 1). specialize (HLast NaN 1).
    rewrite last_cons_ne by assumption. destruct HLst as (-> & -> & ->). tauto.
Qed.

Lemma code_false_factor m : (INR (S m) - NonparModel.code false) / INR (S m) = 1.
Proof. rewrite S_INR. pose proof (pos_INR m). unfold NonparModel.code. field. lra. Qed.

Opaque INR.
Lemma km_loop_consecutive z rows : forall prev sf d l p e r,
  km_loop z rows prev sf d = l ++ p :: e :: r -> e_code e = false -> e_est e = e_est p.
Proof.
  induction rows as [|[t c] rest IH]; intros prev sf d l p e r E Hc.
  - destruct l; discriminate.
  - cbn [km_loop] in E.
    destruct (if c then _ else _) as [sf' d'].
    destruct l as [|x l]; cbn [app] in E; injection E as Ep E; [|eauto].
    destruct rest as [|[t2 c2] rest]; [discriminate|].
    cbn [km_loop] in E. destruct (if c2 then _ else _) as [sf'' d''].
    injection E as <- _. cbn [e_code] in Hc. subst c2. rewrite <- Ep. cbn [e_est].
    rewrite code_false_factor. rewrite Rmult_1_l. reflexivity.
Qed.

Transparent INR.
Lemma last_pair {A B} (g : A -> B) (pre : list A) p e rows d :
  map g (pre ++ [p; e]) = rows -> last rows d = g e.
Proof. intros <-. rewrite map_app. simpl. replace (map g pre ++ [g p; g e]) with ((map g pre ++ [g p]) ++ [g e]) by now rewrite <- app_assoc. apply last_last. Qed.

Lemma n_failed_le rows : (n_failed rows <= length rows)%nat.
Proof. unfold n_failed. induction rows as [|[t []] r IH]; simpl; lia. Qed.

Opaque INR.
Lemma km_loop_first_censored z rows e : hd_error (km_loop z rows 1 (Fin 0) (Fin 0)) = Some e ->
  e_code e = false -> e_est e = 1.
Proof.
  destruct rows as [|[t c] rest]; [discriminate|]. cbn [km_loop].
  destruct c; [destruct (greenwood _ _ _ _)|]; cbn [hd_error]; intros E; injection E as <-; [discriminate|].
  intros _. cbn [e_est]. rewrite code_false_factor. ring.
Qed.

Transparent INR.
Lemma kaplan_meier_steps CI rows es : kaplan_meier CI rows = Ok es ->
  let s := step_arrays es in
  length (st_x s) = length (st_SF s) /\ length (st_lower s) = length (st_SF s) /\
  length (st_upper s) = length (st_SF s) /\
  hd_error (st_x s) = Some 0 /\ hd_error (st_SF s) = Some 1 /\
  (forall k y lo up,
     (S k < length (st_SF s))%nat \/ snd (last rows (0, true)) = false ->
     nth_error (st_SF s) k = Some y ->
     nth_error (st_lower s) k = Some lo -> nth_error (st_upper s) k = Some up ->
     brackets lo y up).
Proof.
  intros H. pose proof (kaplan_meier_ok _ _ _ H) as [HF HR].
  apply kaplan_meier_inv in H as (HCI & Hn & E).
  assert (2 <= length es)%nat as HL.
  { rewrite E, km_loop_length. pose proof (n_failed_le rows). lia. }
  destruct (step_arrays_spec es HF HL) as (L1 & L2 & L3 & HB & pre & p & e & Ees & Y1 & Y2 & Y3).
  { intros e He. rewrite E in He. exact (km_loop_first_censored _ _ _ He). }
  cbv zeta. repeat (split; [assumption|]).
  assert (hd_error (st_x (step_arrays es)) = Some 0 /\ hd_error (st_SF (step_arrays es)) = Some 1) as [X1 X2].
  { destruct es as [|e0 es0]; [split; reflexivity|]. unfold step_arrays, st_x, st_SF.
    destruct (if e_code e0 then _ else _) as [[[? ?] ?] ?]. split; reflexivity. }
  split; [assumption|]. split; [assumption|].
  intros k y lo up Hor Hy Hlo Hup.
  destruct (Nat.lt_ge_cases (S k) (length (st_SF (step_arrays es)))) as [Hk|Hk]; [eauto|].
  destruct Hor as [Hor|Hcens]; [lia|].
  assert (k < length (st_SF (step_arrays es)))%nat as Hk2 by (apply nth_error_Some; congruence).
  assert (k = length (st_SF (step_arrays es)) - 1)%nat as Ek by lia.
  assert (st_SF (step_arrays es) <> []) as NE by (intros E0; rewrite E0 in Hk2; simpl in Hk2; lia).
  assert (st_lower (step_arrays es) <> []) as NE2 by (intros E0; rewrite E0 in Hlo; destruct k; discriminate).
  assert (st_upper (step_arrays es) <> []) as NE3 by (intros E0; rewrite E0 in Hup; destruct k; discriminate).
  rewrite Ek in Hy. rewrite (nth_error_last _ 1 NE) in Hy.
  rewrite Ek, <- L2 in Hlo. rewrite (nth_error_last _ NaN NE2) in Hlo.
  rewrite Ek, <- L3 in Hup. rewrite (nth_error_last _ NaN NE3) in Hup.
  assert (y = e_est e /\ lo = e_lower p /\ up = e_upper p) as (-> & -> & ->) by (repeat split; congruence).
  assert (e_code e = false) as Hec.
  { rewrite Ees in HR. rewrite (last_pair _ pre p e rows _ HR) in Hcens. exact Hcens. }
  rewrite Ees in E. symmetry in E.
  rewrite (km_loop_consecutive _ _ _ _ _ pre p e [] E Hec).
  rewrite Ees in HF. apply Forall_app in HF as [_ HF]. now inversion HF.
Qed.

(** The estimates of a survival function. *)
Lemma kaplan_meier_survival CI rows es : kaplan_meier CI rows = Ok es ->
  non_increasing (1 :: map e_est es) /\ Forall (fun e => 0 <= e_est e <= 1) es /\
  (forall pre t c post, rows = pre ++ (t, c) :: post ->
     (nth (length pre) (map e_est es) 1 = 0 <-> post = [] /\ c = true)).
Proof.
  intros H. apply kaplan_meier_inv in H as (HCI & Hn & E).
  assert (map e_est es = km_est (map snd rows) 1) as EE by (rewrite E; apply km_loop_est).
  destruct (km_est_range (map snd rows) 1 ltac:(lra)) as [F S]. rewrite <- EE in F, S.
  split; [|split].
  - constructor; [assumption|]. eapply Forall_impl; [|exact F]. simpl. intros; lra.
  - apply (Forall_map e_est) in F. exact F.
  - intros pre t c post Er. rewrite EE, Er, map_app. cbn [map snd].
    rewrite <- (map_length snd pre). rewrite km_est_zero by lra.
    split; intros [H1 H2]; split; auto; [now apply map_eq_nil in H1|now subst].
Qed.

Lemma kaplan_meier_uncensored CI rows es : kaplan_meier CI rows = Ok es ->
  (forall r, In r rows -> snd r = true) ->
  map e_est es = map (fun i => 1 - INR i / INR (length rows)) (seq 1 (length rows)).
Proof.
  intros H Hall. apply kaplan_meier_inv in H as (HCI & Hn & E).
  rewrite E, km_loop_est, repeat_true_codes by assumption.
  pose proof (n_failed_le rows).
  assert (0 < INR (length rows)) by (apply lt_0_INR; lia).
  rewrite (km_est_all_failed _ (length rows)); [|lia| |lia].
  - apply map_ext. intros i. field. lra.
  - field. lra.
Qed.
