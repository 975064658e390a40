(** Proofs about the limits of the axes. *)
From Coquelicot Require Import Coquelicot.
From Coq Require Import String.
From Coq Require Import List Arith Reals Lra Lia Bool Sorting.Sorted.
From Verif Require Import Base RealFacts Ext RList ConvertModel DistModel DistSpec DistProofs DistProofs2 RegProofs QQProofs CombProofs2 SelModel InputModel InputProofs AxesModel AxesSpec.
Import ListNotations.
Open Scope R_scope.

Lemma max2_le a b : a <= max2 a b /\ b <= max2 a b.
Proof. unfold max2. destruct (lt a b) eqn:E; [apply lt_spec in E|apply lt_false in E]; lra. Qed.
Lemma min2_le a b : min2 a b <= a /\ min2 a b <= b.
Proof. unfold min2. destruct (lt b a) eqn:E; [apply lt_spec in E|apply lt_false in E]; lra. Qed.
Lemma max2_is a b : max2 a b = a \/ max2 a b = b.
Proof. unfold max2. destruct (lt a b); auto. Qed.
Lemma rmax_ge : forall l m, m <= rmax m l /\ forall x, In x l -> x <= rmax m l.
Proof.
  induction l as [|y r IH]; intros m; [split; [cbn; lra|intros x []]|]. cbn [rmax]. destruct (IH (if lt m y then y else m)) as [H1 H2].
  destruct (lt m y) eqn:E; [apply lt_spec in E|apply lt_false in E]; (split; [lra|intros x [->|Hx]; [lra|exact (H2 x Hx)]]).
Qed.
Lemma rmin_le : forall l m, rmin m l <= m /\ forall x, In x l -> rmin m l <= x.
Proof.
  induction l as [|y r IH]; intros m; [split; [cbn; lra|intros x []]|]. cbn [rmin]. destruct (IH (if lt y m then y else m)) as [H1 H2].
  destruct (lt y m) eqn:E; [apply lt_spec in E|apply lt_false in E]; (split; [lra|intros x [->|Hx]; [lra|exact (H2 x Hx)]]).
Qed.
(** max of finite numbers *)
Lemma emax_fin : forall l m, emax (Fin m) (map Fin l) = Fin (rmax m l).
Proof. induction l as [|y r IH]; intros m; [reflexivity|]. cbn [map emax rmax egt]. destruct (lt m y); apply IH. Qed.
Lemma last_fin l : l <> [] -> last (map Fin l) NaN = Fin (last l 0).
Proof. induction l as [|x [|y r] IH]; intros H; [contradiction|reflexivity|]. change (last (map Fin (y :: r)) NaN = Fin (last (y :: r) 0)). apply IH. discriminate. Qed.
Lemma nth_fin l i : (i < length l)%nat -> nth i (map Fin l) NaN = Fin (nth i l 0).
Proof. intros H. rewrite (nth_indep _ NaN (Fin 0)) by (rewrite map_length; exact H). apply map_nth. Qed.

(** ** x *)
Lemma own_x_dist d X xvals xmin xmax p x : valid d -> own_x (subject_of d) X xvals xmin xmax = Ok p -> belongs d xvals xmin xmax x -> on p x.
Proof.
  intros V H HB. destruct xvals as [[|x0 r]|]; [contradiction| |].
  - assert (p = (rmin x0 r, rmax x0 r)) as -> by (cbn in H; congruence). destruct (rmin_le r x0), (rmax_ge r x0). unfold on. cbn [fst snd]. destruct HB as [->|Hx]; split; auto.
  - pose proof (ppf_le d (1 / 1000) (999 / 1000) V ltac:(lra) ltac:(lra) ltac:(lra)) as HQ.
    destruct (F_ppf d (all_facts d V) (1 / 1000) ltac:(lra)) as [I1 _]. destruct (F_ppf d (all_facts d V) (999 / 1000) ltac:(lra)) as [I2 _].
    assert (exists lower, (match xmin with Some m => lower = m | None => lower <= ppf d (1 / 1000) end) /\
      exists upper, (match xmax with Some m => upper = m | None => ppf d (999 / 1000) <= upper end) /\ p = (if lt upper lower then (upper, lower) else (lower, upper))) as (lower & HL & upper & HU & Hp).
    { unfold own_x in H. apply bind_ok in H. destruct H as (lower & HL & H). exists lower. split.
      - destruct xmin as [m|]; [congruence|]. unfold subject_of in HL. cbn [s_name s_gamma s_quantile] in HL.
        assert (forall g, dist_gamma d = g -> 0 <= g -> g < ppf d (1 / 1000) ->
          (if Req_EM_T (dist_gamma d) 0 then Ok 0 else Ok (max2 0 (ppf d (1 / 1000) - (ppf d (999 / 1000) - ppf d (1 / 1000)) * (1 / 10)))) = Ok lower -> lower <= ppf d (1 / 1000)) as K.
        { intros g Eg Hg Hq HK. destruct (Req_EM_T (dist_gamma d) 0); [assert (lower = 0) by congruence; lra|].
          assert (lower = max2 0 (ppf d (1 / 1000) - (ppf d (999 / 1000) - ppf d (1 / 1000)) * (1 / 10))) as -> by congruence. destruct (max2_is 0 (ppf d (1 / 1000) - (ppf d (999 / 1000) - ppf d (1 / 1000)) * (1 / 10))) as [-> | ->]; lra. }
        destruct I1 as [I1 _].
        destruct d; cbn [dist_name] in HL; cbn [valid] in V; try (refine (K _ eq_refl _ I1 HL); cbn [dist_gamma]; tauto).
        + assert (Ok (ppf (Normal mu sigma) (1 / 1000)) = Ok lower) as E by exact HL. assert (ppf (Normal mu sigma) (1 / 1000) = lower) as <- by congruence. apply Rle_refl.
        + assert (Ok 0 = Ok lower) as E by exact HL. assert (lower = 0) as -> by congruence. exact (Rlt_le _ _ I1).
        + assert (Ok (ppf (Gumbel mu sigma) (1 / 1000)) = Ok lower) as E by exact HL. assert (ppf (Gumbel mu sigma) (1 / 1000) = lower) as <- by congruence. apply Rle_refl.
      - eexists. split; [|exact (eq_sym (f_equal (fun r => match r with Ok v => v | Err _ => p end) H))]. destruct xmax as [m|]; [reflexivity|]. cbn [subject_of s_name s_quantile].
        destruct I2 as [_ I2]. destruct d; cbn [dist_name String.eqb]; try (match goal with |- _ <= (if ?b then _ else _) => change b with false; cbv iota end; lra). change (String.eqb "Beta" "Beta") with true. cbv iota. exact (Rlt_le _ _ I2). }
    subst p. unfold on. cbn [belongs] in HB.
    destruct (lt upper lower) eqn:E; [apply lt_spec in E|apply lt_false in E]; destruct xmin, xmax; cbn [fst snd] in *; subst; lra.
Qed.

(** A drawing and the view it leaves. *)
Lemma draw_inv v auto q v' : (1 < length (q_X q))%nat -> draw v auto q = Ok v' ->
  exists own top, own_x (q_subject q) (q_X q) (q_xvals q) (q_xmin q) (q_xmax q) = Ok own /\
    own_y (q_subject q) (q_func q) (q_X q) (q_Y q) (snd (v_x v')) (snd own) = Ok top /\
    v_x v' = (if use_prev v then (min2 (fst own) (fst (v_x v)), max2 (snd own) (snd (v_x v))) else own) /\
    (length (q_Y q) = length (q_X q) ->
     let bottom := if use_prev v then min2 0 (fst (v_y v)) else 0 in
     let TOP := if use_prev v then (if egt (Fin (snd (v_y v))) top then Fin (snd (v_y v)) else top) else top in
     v_y v' = match TOP with Fin t => if Req_EM_T bottom t then (bottom, snd (v_y auto)) else (bottom, t) | _ => (bottom, snd (v_y auto)) end).
Proof.
  intros HX H. unfold draw, restore in H. apply bind_ok in H. destruct H as (own & HO & H). cbv zeta in H. assert ((1 <? length (q_X q))%nat = true) as E by (apply Nat.ltb_lt; exact HX). rewrite E in H. cbn [andb] in H.
  apply bind_ok in H. destruct H as (top & HT & H). exists own, top. assert (v' = mkView _ _) as -> by (symmetry; injection H as H; exact H). clear H. cbn [v_x v_y]. cbn [snd] in HT.
  split; [exact HO|]. split; [exact HT|]. split; [destruct (use_prev v); [reflexivity|destruct own; reflexivity]|]. intros HY. rewrite HY, E. reflexivity.
Qed.
Lemma use_prev_spec v : use_prev v = true <-> ~ blank v.
Proof.
  unfold use_prev, blank, is01. destruct v as ((x1, x2), (y1, y2)). cbn [v_x v_y fst snd].
  destruct (Req_EM_T x1 0) as [->|N1]; [|split; [intros _ [E1 E2]; congruence|reflexivity]]. destruct (Req_EM_T x2 1) as [->|N2]; [|split; [intros _ [E1 E2]; congruence|reflexivity]].
  destruct (Req_EM_T y1 0) as [->|N3]; [|split; [intros _ [E1 E2]; congruence|reflexivity]]. destruct (Req_EM_T y2 1) as [->|N4]; [|split; [intros _ [E1 E2]; congruence|reflexivity]].
  split; [discriminate|]. intros H. exfalso. apply H. split; reflexivity.
Qed.
Lemma draw_own v auto q v' own : (1 < length (q_X q))%nat -> draw v auto q = Ok v' -> own_x (q_subject q) (q_X q) (q_xvals q) (q_xmin q) (q_xmax q) = Ok own -> part_of own (v_x v').
Proof.
  intros HX H HO. destruct (draw_inv _ _ _ _ HX H) as (own' & top & HO' & _ & E & _). rewrite HO in HO'. assert (own = own') as <- by congruence. rewrite E. unfold part_of.
  destruct (use_prev v); cbn [fst snd]; [|lra]. pose proof (min2_le (fst own) (fst (v_x v))). pose proof (max2_le (snd own) (snd (v_x v))). lra.
Qed.
Lemma draw_keeps v auto q v' : (1 < length (q_X q))%nat -> length (q_Y q) = length (q_X q) -> draw v auto q = Ok v' -> ~ blank v ->
  part_of (v_x v) (v_x v') /\ fst (v_y v') <= fst (v_y v) /\ fst (v_y v') <= 0 /\ (v_y v' = (min2 0 (fst (v_y v)), snd (v_y auto)) \/ snd (v_y v) <= snd (v_y v')).
Proof.
  intros HX HY H HB. destruct (draw_inv _ _ _ _ HX H) as (own & top & _ & _ & E & EY). specialize (EY HY). apply use_prev_spec in HB. rewrite HB in *. cbv zeta in EY. rewrite E. unfold part_of. cbn [fst snd].
  pose proof (min2_le (fst own) (fst (v_x v))). pose proof (max2_le (snd own) (snd (v_x v))). pose proof (min2_le 0 (fst (v_y v))). split; [lra|].
  destruct top as [t| |]; cbn [egt] in EY.
  - destruct (lt t (snd (v_y v))) eqn:ET; [apply lt_spec in ET|apply lt_false in ET]; cbv iota in EY; match type of EY with context [Req_EM_T ?a ?b] => destruct (Req_EM_T a b) end; rewrite EY; cbn [fst snd];
      (split; [lra|]); (split; [lra|]); try (left; reflexivity); right; lra.
  - rewrite EY. cbn [fst snd]. split; [lra|]. split; [lra|]. left. reflexivity.
  - rewrite EY. cbn [fst snd]. split; [lra|]. split; [lra|]. left. reflexivity.
Qed.

(** ** y *)
Lemma index_spec u : forall X i, match index_from u X i with
  | Some j => (i <= j < i + length X)%nat /\ u <= nth (j - i) X 0 /\ forall k, (k < j - i)%nat -> nth k X 0 < u
  | None => forall k, (k < length X)%nat -> nth k X 0 < u end.
Proof.
  induction X as [|x r IH]; intros i; cbn [index_from]; [intros k Hk; cbn in Hk; lia|]. destruct (le u x) eqn:E.
  - apply le_spec in E. rewrite Nat.sub_diag. split; [cbn; lia|]. split; [exact E|]. intros k Hk. lia.
  - assert (x < u) as Hx by (destruct (Rlt_le_dec x u) as [L|L]; [exact L|exfalso; apply le_spec in L; congruence]).
    specialize (IH (S i)). destruct (index_from u r (S i)) as [j|].
    + destruct IH as (H1 & H2 & H3). cbn [length]. split; [lia|]. replace (j - i)%nat with (S (j - S i)) by lia. cbn [nth]. split; [exact H2|]. intros [|k] Hk; [exact Hx|]. apply H3. lia.
    + intros [|k] Hk; [exact Hx|]. cbn [nth]. apply IH. cbn [length] in Hk. lia.
Qed.
Lemma sorted_nth X : StronglySorted Rlt X -> forall i j, (i < j < length X)%nat -> nth i X 0 < nth j X 0.
Proof.
  intros H. induction H as [|x l Hl IH Hx]; intros i j Hij; [cbn in Hij; lia|]. destruct j as [|j]; [lia|]. cbn [length] in Hij. destruct i as [|i]; cbn [nth].
  - rewrite Forall_forall in Hx. apply Hx. apply nth_In. lia.
  - apply IH. lia.
Qed.
Lemma sorted_le_nth Y : StronglySorted Rle Y -> forall i j, (i <= j < length Y)%nat -> nth i Y 0 <= nth j Y 0.
Proof.
  intros H. induction H as [|x l Hl IH Hx]; intros i j Hij; [cbn in Hij; lia|]. cbn [length] in Hij. destruct i as [|i]; destruct j as [|j]; cbn [nth]; try lra; try lia.
  - rewrite Forall_forall in Hx. apply Hx. apply nth_In. lia.
  - apply IH. lia.
Qed.
(** The height of a rising curve at the index is at least that of every point up to [u]. *)
Lemma index_high X ys u i : StronglySorted Rlt X -> StronglySorted Rle ys -> length ys = length X -> (1 < length X)%nat ->
  (i < length X)%nat -> nth i X 0 <= u -> (index_at u X < length X)%nat /\ nth i ys 0 <= nth (index_at u X) ys 0.
Proof.
  intros HX HY HL H1 Hi Hu. pose proof (index_spec u X 0) as HS. unfold index_at. destruct (index_from u X 0) as [j|].
  - destruct HS as (A & B & C). rewrite Nat.sub_0_r in *. split; [lia|]. apply sorted_le_nth; [exact HY|]. rewrite HL. split; [|lia].
    destruct (Nat.le_gt_cases i j) as [|G]; [assumption|]. exfalso. pose proof (sorted_nth X HX j i ltac:(lia)). lra.
  - split; [lia|]. apply sorted_le_nth; [exact HY|]. lia.
Qed.
(** The top of the axis is at least the height asked for. *)
Lemma top_reached v auto q v' top h : (1 < length (q_X q))%nat -> length (q_Y q) = length (q_X q) -> draw v auto q = Ok v' ->
  own_y (q_subject q) (q_func q) (q_X q) (q_Y q) (snd (v_x v')) (snd (match own_x (q_subject q) (q_X q) (q_xvals q) (q_xmin q) (q_xmax q) with Ok o => o | Err _ => (0, 0) end)) = Ok (Fin top) ->
  0 <= h <= top -> on (v_y auto) h -> on (v_y v') h.
Proof.
  intros HX HY H HT Hh HA. destruct (draw_inv _ _ _ _ HX H) as (own & top' & HO & HT' & E & EY). rewrite HO in HT. rewrite HT in HT'. assert (top' = Fin top) as -> by congruence. clear HT'. specialize (EY HY). cbv zeta in EY.
  unfold on in *. destruct (use_prev v).
  - pose proof (min2_le 0 (fst (v_y v))). cbn [egt] in EY. destruct (lt top (snd (v_y v))) eqn:ET; [apply lt_spec in ET|apply lt_false in ET]; match type of EY with context [Req_EM_T ?a ?b] => destruct (Req_EM_T a b) end; rewrite EY; cbn [fst snd]; lra.
  - match type of EY with context [Req_EM_T ?a ?b] => destruct (Req_EM_T a b) end; rewrite EY; cbn [fst snd]; lra.
Qed.
