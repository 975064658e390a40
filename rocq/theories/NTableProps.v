(** C170: the results tables of KaplanMeier, NelsonAalen and RankAdjustment. *)
From Coquelicot Require Import Coquelicot.
From Coq Require Import List Arith ZArith Reals Bool Lra Lia Permutation Sorted.
From Verif Require Import Base RealFacts Gauss Ext RList NonparModel NonparSpec NonparProofs NonparProofs4 NonparProps NTableModel NTableSpec.
Import ListNotations.
Open Scope R_scope.

Lemma table_cons e es : results_table (e :: es) = mkRes (e_time e) (e_code e) (S (length es)) (e_est e) (e_lower e) (e_upper e) :: results_table es.
Proof.
  unfold results_table. cbn [length]. rewrite seq_S, rev_app_distr. cbn [rev app combine map fst snd]. reflexivity.
Qed.
Lemma table_map {A} (g : results_row -> A) (h : entry -> A) : (forall e n, g (mkRes (e_time e) (e_code e) n (e_est e) (e_lower e) (e_upper e)) = h e) ->
  forall es, map g (results_table es) = map h es.
Proof. intros H es. induction es as [|e es IH]; [reflexivity|]. rewrite table_cons. cbn [map]. now rewrite H, IH. Qed.
Lemma table_remaining es : forall pre r post, results_table es = pre ++ r :: post -> c_remaining r = S (length post).
Proof.
  induction es as [|e es IH]; intros pre r post H; [destruct pre; discriminate H|]. rewrite table_cons in H. destruct pre as [|p pre].
  - cbn [app] in H. injection H as <- <-. cbn [c_remaining]. f_equal. unfold results_table. rewrite map_length, combine_length, rev_length, seq_length. lia.
  - cbn [app] in H. injection H as _ H. exact (IH _ _ _ H).
Qed.
Lemma km_rows z rows : forall prev sf d, map (fun e => (e_time e, e_code e)) (km_loop z rows prev sf d) = rows.
Proof. induction rows as [|[t c] rows IH]; intros prev sf d; [reflexivity|]. cbn [km_loop]. destruct (if c then _ else _) as [sf' d']. cbn [map e_time e_code]. now rewrite IH. Qed.
Lemma na_rows z rows : forall H sf d, map (fun e => (e_time e, e_code e)) (map snd (na_loop z rows H sf d)) = rows.
Proof. induction rows as [|[t c] rows IH]; intros H sf d; [reflexivity|]. cbn [na_loop]. destruct (if c then _ else _) as [sf' d']. cbn [map snd e_time e_code]. now rewrite IH. Qed.
Lemma ra_rows z rows : forall cur ys sf d, map (fun e => (e_time e, e_code e)) (ra_loop z rows cur ys sf d) = rows.
Proof. induction rows as [|[t c] rows IH]; intros cur ys sf d; [reflexivity|]. cbn [ra_loop]. destruct (if c then (hd 0 ys, tl ys) else (cur, ys)) as [cur' ys']. destruct (if c then _ else _) as [sf' d']. cbn [map e_time e_code]. now rewrite IH. Qed.

Lemma results_inv k CI rows T : results k CI rows = Ok T -> exists es, T = results_table es /\ map (fun e => (e_time e, e_code e)) es = rows.
Proof.
  assert (forall X (x : X) y, @Ok X x = Ok y -> y = x) as OkI by (intros X x y H; apply (f_equal (fun r => match r with Ok c => c | Err _ => x end)) in H; symmetry; exact H).
  destruct k as [| |a]; unfold results; intros H.
  - unfold kaplan_meier in H. destruct (np_checks _ _); [|discriminate]. cbn [bind] in H. apply OkI in H. eexists. split; [exact H|apply km_rows].
  - unfold nelson_aalen in H. destruct (np_checks _ _); [|discriminate]. cbn [bind] in H. apply OkI in H. eexists. split; [exact H|apply na_rows].
  - unfold rank_adjustment in H. destruct (np_checks _ _); [|discriminate]. cbn [bind] in H. destruct (plotting_positions_sorted _ _); [|discriminate]. cbn [bind] in H. apply OkI in H. eexists. split; [exact H|apply ra_rows].
Qed.

Lemma filter_perm_length {A} (g : A -> bool) l m : Permutation l m -> length (filter g l) = length (filter g m).
Proof.
  induction 1 as [|x l m H IH|x y l|l m n H1 IH1 H2 IH2]; [reflexivity| | |congruence]; cbn [filter].
  - destruct (g x); cbn [length]; lia.
  - destruct (g x), (g y); cbn [length]; lia.
Qed.
Lemma filter_none {A} (g : A -> bool) l : (forall x, In x l -> g x = false) -> filter g l = [].
Proof. induction l as [|x l IH]; intros H; [reflexivity|]. cbn [filter]. rewrite (H x) by now left. apply IH. intros y Hy. apply H. now right. Qed.
Lemma filter_each {A} (g : A -> bool) l : (forall x, In x l -> g x = true) -> filter g l = l.
Proof. induction l as [|x l IH]; intros H; [reflexivity|]. cbn [filter]. rewrite (H x) by now left. f_equal. apply IH. intros y Hy. apply H. now right. Qed.
Lemma filter_le {A} (g : A -> bool) l : (length (filter g l) <= length l)%nat.
Proof. induction l as [|x l IH]; [apply Nat.le_refl|]. cbn [filter]. destruct (g x); cbn [length]; lia. Qed.

Lemma sorted_parts (l : list R) t r : StronglySorted Rle (l ++ t :: r) -> (forall x, In x l -> x <= t) /\ (forall x, In x r -> t <= x).
Proof.
  induction l as [|y l IH]; cbn [app]; intros H; apply StronglySorted_inv in H as [H1 H2].
  - split; [intros x []|]. now apply Forall_forall.
  - destruct (IH H1) as [A B]. split; [|exact B]. intros x [<-|Hx]; [|now apply A]. rewrite Forall_forall in H2. apply H2. apply in_or_app. right. now left.
Qed.
Lemma times_of f rc rows : is_sorting_of (all_rows f rc) rows -> Permutation (f ++ rc) (map fst rows) /\ StronglySorted Rle (map fst rows).
Proof.
  intros [HP HS]. split.
  - apply (Permutation_map fst) in HP. unfold all_rows in HP. rewrite map_app, !map_map in HP. cbn [fst] in HP. now rewrite !map_id in HP.
  - clear HP. induction HS as [|r rs HS IH HF]; [constructor|]. cbn [map]. constructor; [exact IH|]. rewrite Forall_map. exact HF.
Qed.

Lemma table_times k CI rows T : results k CI rows = Ok T -> map (fun r => (c_time r, c_code r)) T = rows.
Proof. intros H. destruct (results_inv _ _ _ _ H) as (es & -> & <-). now apply table_map. Qed.

(** The table has one row for each item, in the order of time.  The number of items remaining
    in a row is above the number of items that were there after its time and at most the number
    of those that had been there until then. *)
Theorem C170_rows : forall k f rc CI rows T, is_sorting_of (all_rows f rc) rows -> results k CI rows = Ok T ->
  Permutation (all_rows f rc) (map (fun r => (c_time r, c_code r)) T) /\ StronglySorted Rle (map c_time T) /\
  hd 0%nat (map c_remaining T) = length (f ++ rc) /\ last (map c_remaining T) 1%nat = 1%nat /\
  Forall (fun r => there_after (c_time r) (f ++ rc) < c_remaining r <= there_at (c_time r) (f ++ rc))%nat T.
Proof.
  intros k f rc CI rows T HS H. pose proof (table_times _ _ _ _ H) as ET. destruct (times_of _ _ _ HS) as [HP HO].
  assert (map c_time T = map fst rows) as EM by (rewrite <- ET, map_map; reflexivity). rewrite <- EM in HP, HO.
  assert (forall pre r post, T = pre ++ r :: post -> c_remaining r = S (length post)) as HR by (destruct (results_inv _ _ _ _ H) as (es & -> & _); apply table_remaining).
  split; [rewrite ET; apply HS|]. split; [exact HO|].
  split. { destruct T as [|r T]; [apply Permutation_length in HP; cbn in HP |- *; lia|]. cbn [map hd]. rewrite (HR [] r T eq_refl). apply Permutation_length in HP. rewrite HP, map_length. reflexivity. }
  split. { destruct T as [|r0 T0] using rev_ind; [reflexivity|]. rewrite map_app. cbn [map]. rewrite last_last. rewrite (HR _ r0 [] eq_refl). reflexivity. }
  apply Forall_forall. intros r Hr. apply in_split in Hr as (pre & post & E). rewrite (HR _ _ _ E). unfold there_after, there_at.
  rewrite (filter_perm_length _ _ _ HP), (filter_perm_length (fun x => if Rle_dec _ x then _ else _) _ _ HP). rewrite E, map_app in *. cbn [map] in *.
  destruct (sorted_parts _ _ _ HO) as [A B]. rewrite !filter_app, !app_length. cbn [filter]. split.
  - rewrite (filter_none _ (map c_time pre)). 2:{ intros x Hx. apply A in Hx. destruct (Rlt_dec (c_time r) x); [lra|reflexivity]. }
    destruct (Rlt_dec (c_time r) (c_time r)); [lra|]. cbn [length]. pose proof (filter_le (fun x => if Rlt_dec (c_time r) x then true else false) (map c_time post)) as L. rewrite map_length in L. lia.
  - destruct (Rle_dec (c_time r) (c_time r)); [|lra]. cbn [length]. rewrite (filter_each _ (map c_time post)). 2:{ intros x Hx. apply B in Hx. destruct (Rle_dec (c_time r) x); [reflexivity|lra]. }
    rewrite map_length. lia.
Qed.
Print Assumptions C170_rows.

(** If no two items have the same time it is the number of items that had been there. *)
Theorem C170_remaining_partial : forall k f rc CI rows T, is_sorting_of (all_rows f rc) rows -> NoDup (f ++ rc) -> results k CI rows = Ok T ->
  Forall (fun r => c_remaining r = there_at (c_time r) (f ++ rc)) T.
Proof.
  intros k f rc CI rows T HS HN H. destruct (C170_rows k f rc CI rows T HS H) as (_ & _ & _ & _ & HF). rewrite Forall_forall in *. intros r Hr. specialize (HF r Hr).
  assert (forall t l, NoDup l -> there_at t l <= S (there_after t l))%nat as G.
  { clear. intros t l HN. unfold there_at, there_after. induction HN as [|x l Hx HN IH]; [cbn; lia|]. cbn [filter].
    destruct (Rle_dec t x) as [A|A]; destruct (Rlt_dec t x) as [B|B]; cbn [length]; try lra; try lia.
    assert (x = t) as -> by lra. assert (length (filter (fun x => if Rle_dec t x then true else false) l) = length (filter (fun x => if Rlt_dec t x then true else false) l)) as ->; [|lia].
    f_equal. apply filter_ext_in. intros y Hy. destruct (Rle_dec t y), (Rlt_dec t y); try reflexivity; try lra. exfalso. apply Hx. replace t with y by lra. exact Hy. }
  specialize (G (c_time r) (f ++ rc) HN). lia.
Qed.
Print Assumptions C170_remaining_partial.

(** Among equal times the rows count down although the items were there together. *)
Theorem C170_remaining_refuted : exists T, results Kaplan_Meier (95 / 100) [(1, true); (1, true)] = Ok T /\ is_sorting_of (all_rows [1; 1] []) [(1, true); (1, true)] /\
  exists r, In r T /\ c_time r = 1 /\ c_remaining r = 1%nat /\ there_at 1 [1; 1] = 2%nat.
Proof.
  assert (is_sorting_of (all_rows [1; 1] []) [(1, true); (1, true)]) as HS.
  { split; [apply Permutation_refl|]. repeat first [apply SSorted_cons|apply SSorted_nil|apply Forall_cons|apply Forall_nil]; simpl; lra. }
  destruct (C13_kaplan_meier_succeeds [1; 1] [] (95 / 100) _ HS ltac:(lra) ltac:(simpl; lia)) as [es EK].
  exists (results_table es). assert (results Kaplan_Meier (95 / 100) [(1, true); (1, true)] = Ok (results_table es)) as ER by (unfold results; rewrite EK; reflexivity).
  split; [exact ER|]. split; [exact HS|]. pose proof (table_times _ _ _ _ ER) as ET. destruct (C170_rows _ _ _ _ _ _ HS ER) as (_ & _ & _ & HL & _).
  destruct (results_table es) as [|r1 [|r2 [|]]]; try discriminate ET. cbn [map last] in HL, ET. exists r2. split; [right; left; reflexivity|].
  split. { apply (f_equal (fun l => fst (nth 1 l (0, true)))) in ET. exact ET. } split; [exact HL|].
  unfold there_at. cbn [filter]. destruct (Rle_dec 1 1); [reflexivity|lra].
Qed.
Print Assumptions C170_remaining_refuted.

(** ** The estimates follow from the rows *)
Lemma km_step z rows : forall prev sf d pre r post, results_table (km_loop z rows prev sf d) = pre ++ r :: post ->
  c_est r = (if c_code r then 1 - 1 / INR (c_remaining r) else 1) * last (map c_est pre) prev.
Proof.
  induction rows as [|[t c] rows IH]; intros prev sf d pre r post H; [destruct pre; discriminate H|].
  cbn [km_loop] in H. destruct (if c then _ else _) as [sf' d'] in H. rewrite table_cons in H. destruct pre as [|p pre].
  - cbn [app] in H. injection H as <- _. cbn [c_est c_code c_remaining e_est e_code map last].
    assert (forall p, length (km_loop z rows p sf' d') = length rows) as LL by (intros p; rewrite <- (map_length (fun e => (e_time e, e_code e))), km_rows; reflexivity). rewrite ?LL. change (match length rows with O => 1 | S _ => INR (length rows) + 1 end) with (INR (S (length rows))).
    assert (0 < INR (S (length rows))) by (apply lt_0_INR; lia). destruct c; cbn [code]; field; lra.
  - cbn [app] in H. injection H as <- H. rewrite (IH _ _ _ _ _ _ H). cbn [map c_est e_est]. f_equal. destruct pre; [reflexivity|]. cbn [map]. generalize (c_est r0). clear. intros x. revert x. induction pre as [|q pre IH]; intros x; [reflexivity|]. cbn [map last]. destruct (map c_est pre) eqn:E; [reflexivity|]. rewrite <- E in *. destruct pre; [discriminate E|]. cbn [map] in *. apply (IH (c_est q)).
Qed.

(** Each Kaplan-Meier estimate is the one before times 1 - 1/remaining at a failure, and the
    one before at a censored item. *)
Theorem C170_kaplan_meier : forall CI rows T pre r post, results Kaplan_Meier CI rows = Ok T -> T = pre ++ r :: post ->
  c_est r = (if c_code r then 1 - 1 / INR (c_remaining r) else 1) * last (map c_est pre) 1.
Proof.
  intros CI rows T pre r post H E. unfold results, kaplan_meier in H. destruct (np_checks _ _); [|discriminate]. cbn [bind] in H.
  apply (f_equal (fun r => match r with Ok c => c | Err _ => T end)) in H. rewrite E in H. exact (km_step _ _ _ _ _ _ _ _ H).
Qed.
Print Assumptions C170_kaplan_meier.

Lemma na_step z rows : forall H0 sf d pre r post, results_table (map snd (na_loop z rows H0 sf d)) = pre ++ r :: post ->
  c_est r = (if c_code r then exp (- (1 / INR (c_remaining r))) else 1) * last (map c_est pre) (exp (- H0)).
Proof.
  induction rows as [|[t c] rows IH]; intros H0 sf d pre r post H; [destruct pre; discriminate H|].
  cbn [na_loop] in H. destruct (if c then _ else _) as [sf' d'] in H. cbn [map snd] in H. rewrite table_cons in H. destruct pre as [|p pre].
  - cbn [app] in H. injection H as <- _. cbn [c_est c_code c_remaining e_est e_code map last].
    assert (forall p, length (map snd (na_loop z rows p sf' d')) = length rows) as LL by (intros p; rewrite <- (map_length (fun e => (e_time e, e_code e))), na_rows; reflexivity). rewrite ?LL. change (match length rows with O => 1 | S _ => INR (length rows) + 1 end) with (INR (S (length rows))).
    destruct c; cbn [code]; [rewrite <- exp_plus; f_equal; lra|]. unfold Rdiv. rewrite Rmult_0_l, Rplus_0_r. lra.
  - cbn [app] in H. injection H as <- H. rewrite (IH _ _ _ _ _ _ H). cbn [map c_est e_est]. f_equal. destruct pre; [reflexivity|]. cbn [map]. generalize (c_est r0). clear. intros x. revert x. induction pre as [|q pre IH]; intros x; [reflexivity|]. cbn [map last]. destruct (map c_est pre) eqn:E; [reflexivity|]. rewrite <- E in *. destruct pre; [discriminate E|]. cbn [map] in *. apply (IH (c_est q)).
Qed.

(** Each Nelson-Aalen estimate is the one before times exp(-1/remaining) at a failure. *)
Theorem C170_nelson_aalen : forall CI rows T pre r post, results Nelson_Aalen CI rows = Ok T -> T = pre ++ r :: post ->
  c_est r = (if c_code r then exp (- (1 / INR (c_remaining r))) else 1) * last (map c_est pre) 1.
Proof.
  intros CI rows T pre r post H E. unfold results, nelson_aalen in H. destruct (np_checks _ _); [|discriminate]. cbn [bind] in H.
  apply (f_equal (fun r => match r with Ok c => c | Err _ => T end)) in H. rewrite E in H. apply na_step in H. rewrite Ropp_0, exp_0 in H. exact H.
Qed.
Print Assumptions C170_nelson_aalen.

(** A table that meets the hypotheses. *)
Example C170_case : exists T, results Kaplan_Meier (95 / 100) [(1, true); (3, false); (5, true)] = Ok T /\ is_sorting_of (all_rows [5; 1] [3]) [(1, true); (3, false); (5, true)] /\ NoDup ([5; 1] ++ [3]).
Proof.
  destruct C15_example as [es EK]. exists (results_table es). split; [unfold results; rewrite EK; reflexivity|]. split; [apply sorting_example|].
  cbn [app]. repeat constructor; simpl; intros H; repeat destruct H as [H|H]; try contradiction; lra.
Qed.

(** The bounds in each row are bounds for its estimate. *)
Lemma table_Forall (P : results_row -> Prop) es : (forall e n, In e es -> P (mkRes (e_time e) (e_code e) n (e_est e) (e_lower e) (e_upper e))) -> Forall P (results_table es).
Proof.
  induction es as [|e es IH]; intros H; [constructor|]. rewrite table_cons. constructor; [apply H; now left|]. apply IH. intros e' n He. apply H. now right.
Qed.
Theorem C170_limits : forall k f rc CI rows T, is_sorting_of (all_rows f rc) rows -> 0 < CI -> (forall a, k = Rank_Adjustment a -> a_value a < 1) -> results k CI rows = Ok T ->
  Forall (fun r => brackets (c_lower r) (c_est r) (c_upper r)) T.
Proof.
  intros k f rc CI rows T HS HC Ha H. destruct k as [| |a]; unfold results in H.
  - destruct (kaplan_meier CI rows) as [es|] eqn:E; [|discriminate]. cbn [bind] in H. apply (f_equal (fun r => match r with Ok c => c | Err _ => T end)) in H. rewrite <- H.
    apply table_Forall. intros e n He. cbn [c_lower c_est c_upper]. pose proof (C15_kaplan_meier_limits f rc CI rows es HS E) as L. rewrite Forall_forall in L. now apply L.
  - destruct (nelson_aalen CI rows) as [es|] eqn:E; [|discriminate]. cbn [bind] in H. apply (f_equal (fun r => match r with Ok c => c | Err _ => T end)) in H. rewrite <- H.
    apply table_Forall. intros e n He. apply in_map_iff in He as (he & <- & He). cbn [c_lower c_est c_upper]. pose proof (C17_nelson_aalen_limits f rc CI rows es HS HC E) as L. rewrite Forall_forall in L. now apply L.
  - destruct (rank_adjustment CI a rows) as [es|] eqn:E; [|discriminate]. cbn [bind] in H. apply (f_equal (fun r => match r with Ok c => c | Err _ => T end)) in H. rewrite <- H.
    apply table_Forall. intros e n He. cbn [c_lower c_est c_upper]. pose proof (C18_rank_adjustment f rc CI a rows es HS (Ha a eq_refl) HC E) as L. destruct L as (x & y & L). repeat match type of L with _ /\ _ => let A := fresh in destruct L as [A L] end.
    match goal with A : Forall (fun e => brackets _ _ _) _ |- _ => rewrite Forall_forall in A; now apply A | A : Forall (fun e => _ /\ brackets _ _ _) _ |- _ => rewrite Forall_forall in A; now apply A end.
Qed.
Print Assumptions C170_limits.
