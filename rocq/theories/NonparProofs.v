From Coq Require Import List Arith Reals Bool Permutation Sorted Lra Lia.
From Verif Require Import Base Ext Gauss NonparModel NonparSpec.
Import ListNotations.
Open Scope R_scope.

(** * Plotting positions *)
Definition nf (codes : list bool) : nat := length (filter (fun c => c) codes).

Lemma nf_map rows : nf (map snd rows) = n_failed rows.
Proof.
  unfold nf, n_failed. induction rows as [|[t []] r IH]; simpl; auto.
Qed.

Lemma leading_cens_ok codes : (0 < nf codes)%nat -> exists k, leading_cens codes = Ok k.
Proof.
  induction codes as [|[] r IH]; simpl; intros H; [unfold nf in H; simpl in H; lia|eauto|].
  destruct IH as (k & ->); [exact H|]. simpl. eauto.
Qed.

Lemma leading_cens_0 codes : leading_cens codes = Ok 0%nat -> exists r, codes = true :: r.
Proof.
  destruct codes as [|[] r]; simpl; try discriminate; eauto.
  destruct (leading_cens r); simpl; discriminate.
Qed.

Lemma leading_cens_err codes : nf codes = 0%nat -> leading_cens codes = Err IndexError.
Proof.
  induction codes as [|[] r IH]; simpl; intros H; [reflexivity|unfold nf in H; simpl in H; lia|].
  rewrite IH by exact H. reflexivity.
Qed.

Lemma adjusted_ranks_eq codes : (0 < nf codes)%nat ->
  adjusted_ranks codes = Ok (rank_loop (length codes) 0 (failure_reverse_i codes)).
Proof.
  intros H. destruct (leading_cens_ok codes H) as (k & E). unfold adjusted_ranks. rewrite E. simpl.
  destruct (Nat.ltb_spec 0 k) as [L|L]; [reflexivity|].
  replace k with 0%nat in E by lia. apply leading_cens_0 in E as (r & ->).
  cbn [failure_reverse_i tl rank_loop length]. f_equal.
  replace (0 + (INR (S (length r)) + 1 - 0) / (1 + INR (S (length r)))) with 1; [reflexivity|].
  pose proof (pos_INR (S (length r))). field. lra.
Qed.

Lemma failure_reverse_i_length codes : length (failure_reverse_i codes) = nf codes.
Proof. unfold nf. induction codes as [|[] r IH]; simpl; auto. Qed.

Lemma rank_loop_length n prev l : length (rank_loop n prev l) = length l.
Proof. revert prev. induction l; intros; simpl; auto. Qed.

Lemma failure_reverse_i_nth pre post :
  nth_error (failure_reverse_i (pre ++ true :: post)) (nf pre) = Some (S (length post)).
Proof.
  induction pre as [|[] r IH]; simpl; auto.
Qed.

Lemma rank_loop_nth n l : forall prev k r, nth_error l k = Some r ->
  nth (S k) (prev :: rank_loop n prev l) 0 =
  nth k (prev :: rank_loop n prev l) 0 +
  (INR n + 1 - nth k (prev :: rank_loop n prev l) 0) / (1 + INR r).
Proof.
  induction l as [|r0 l IH]; intros prev [|k] r H; simpl in H; try discriminate.
  - inversion H; subst. reflexivity.
  - cbn [rank_loop]. set (q := prev + _).
    change (nth (S (S k)) (prev :: q :: rank_loop n q l) 0) with (nth (S k) (q :: rank_loop n q l) 0).
    change (nth (S k) (prev :: q :: rank_loop n q l) 0) with (nth k (q :: rank_loop n q l) 0).
    now apply IH.
Qed.

Lemma failure_times_length rows : length (failure_times rows) = n_failed rows.
Proof. unfold failure_times, n_failed. apply map_length. Qed.

Lemma failure_times_nth pre t post :
  nth_error (failure_times (pre ++ (t, true) :: post)) (n_failed pre) = Some t.
Proof.
  unfold failure_times, n_failed. induction pre as [|[s []] r IH]; simpl; auto.
Qed.

Lemma Rltb_false x y : Rltb x y = false <-> y <= x.
Proof. unfold Rltb. destruct (Rlt_dec x y); split; intros; try discriminate; lra || auto. Qed.
Lemma Rltb_true x y : Rltb x y = true <-> x < y.
Proof. unfold Rltb. destruct (Rlt_dec x y); split; intros; try discriminate; lra || auto. Qed.

Lemma check_a_inv a v : check_a a = Ok v <-> v = a_value a /\ 0 <= v <= 1.
Proof.
  destruct a as [a|]; simpl.
  - destruct (Rltb a 0) eqn:E1; simpl.
    { apply Rltb_true in E1. split; [discriminate|]. intros [-> ?]. lra. }
    destruct (Rltb 1 a) eqn:E2.
    { apply Rltb_true in E2. split; [discriminate|]. intros [-> ?]. lra. }
    apply Rltb_false in E1, E2. split; [|intros [-> _]; reflexivity].
    inversion 1; subst. lra.
  - split; [|intros [-> _]; reflexivity]. inversion 1; subst. lra.
Qed.

Lemma positions_inv a codes y : positions a codes = Ok y ->
  (0 < nf codes)%nat /\ INR (length codes) + 1 - 2 * a <> 0 /\
  y = map (fun i => (i - a) / (INR (length codes) + 1 - 2 * a))
        (rank_loop (length codes) 0 (failure_reverse_i codes)).
Proof.
  unfold positions. intros H.
  assert (0 < nf codes)%nat as Hn.
  { destruct (Nat.eq_dec (nf codes) 0) as [E|E]; [|lia].
    unfold adjusted_ranks in H. rewrite (leading_cens_err codes E) in H. discriminate. }
  rewrite adjusted_ranks_eq in H by assumption. simpl in H.
  destruct (Req_EM_T _ 0); [discriminate|]. inversion H. auto.
Qed.

Lemma sorted_inv a rows x y : plotting_positions_sorted a rows = Ok (x, y) ->
  0 <= a_value a <= 1 /\ x = failure_times rows /\ positions (a_value a) (map snd rows) = Ok y.
Proof.
  unfold plotting_positions_sorted. destruct (check_a a) as [v|] eqn:E; simpl; [|discriminate].
  apply check_a_inv in E as [-> E].
  destruct (positions _ _) eqn:E2; simpl; [|discriminate]. inversion 1; subst. auto.
Qed.

Lemma plotting_positions_johnson a rows x y :
  plotting_positions_sorted a rows = Ok (x, y) ->
  length x = n_failed rows /\ length y = n_failed rows /\
  exists rank : nat -> R, rank 0%nat = 0 /\
    forall pre t post, rows = pre ++ (t, true) :: post ->
      let n := INR (length rows) in
      let k := n_failed pre in
      let items_from_here := INR (S (length post)) in
      rank (S k) = rank k + (n + 1 - rank k) / (1 + items_from_here) /\
      nth_error x k = Some t /\
      nth_error y k = Some ((rank (S k) - a_value a) / (n + 1 - 2 * a_value a)).
Proof.
  intros H. apply sorted_inv in H as (Ha & -> & H). apply positions_inv in H as (Hn & Hd & ->).
  rewrite ?(map_length snd rows) in *.
  split; [apply failure_times_length|].
  split; [now rewrite map_length, rank_loop_length, failure_reverse_i_length, nf_map|].
  exists (fun k => nth k (0 :: rank_loop (length rows) 0 (failure_reverse_i (map snd rows))) 0).
  split; [reflexivity|]. intros pre t post E. cbv zeta.
  pose proof (failure_reverse_i_nth (map snd pre) (map snd post)) as HR.
  replace (map snd pre ++ true :: map snd post) with (map snd rows) in HR
    by (rewrite E, map_app; reflexivity).
  rewrite nf_map, map_length in HR.
  pose proof (rank_loop_nth (length rows) _ 0 _ _ HR) as HK.
  split; [exact HK|]. split; [rewrite E; apply failure_times_nth|].
  rewrite nth_error_map.
  assert (n_failed pre < length (rank_loop (length rows) 0 (failure_reverse_i (map snd rows))))%nat as HL.
  { rewrite rank_loop_length. apply nth_error_Some. congruence. }
  erewrite nth_error_nth' with (d := 0) by exact HL. reflexivity.
Qed.

Lemma plotting_positions_succeeds a rows :
  0 <= a_value a <= 1 -> (0 < n_failed rows)%nat ->
  (a_value a < 1 \/ (1 < length rows)%nat) ->
  exists x y, plotting_positions_sorted a rows = Ok (x, y).
Proof.
  intros Ha Hn Hd. unfold plotting_positions_sorted.
  replace (check_a a) with (@Ok R (a_value a)) by (symmetry; now apply check_a_inv). simpl.
  unfold positions. rewrite adjusted_ranks_eq by now rewrite nf_map. simpl.
  destruct (Req_EM_T _ 0) as [E|E]; simpl; [exfalso|eauto].
  rewrite map_length in E.
  assert (1 <= INR (length rows)) as H1.
  { apply (le_INR 1). unfold n_failed in Hn.
    destruct rows; simpl in *; lia. }
  destruct Hd as [Hd|Hd]; [lra|]. assert (2 <= INR (length rows)) by (apply (le_INR 2); lia). lra.
Qed.

(** Every step raises the rank by at least one and leaves room for the items that follow. *)
Lemma rank_loop_bounds n codes : forall prev,
  prev + INR (length codes) <= INR n ->
  StronglySorted Rlt (rank_loop n prev (failure_reverse_i codes)) /\
  Forall (fun r => prev + 1 <= r <= INR n) (rank_loop n prev (failure_reverse_i codes)).
Proof.
  induction codes as [|c codes IH]; intros prev H; [split; constructor|].
  cbn [length] in H. rewrite S_INR in H. pose proof (pos_INR (length codes)) as Hp.
  destruct c; cbn [failure_reverse_i].
  - cbn [rank_loop]. rewrite S_INR.
    set (L := INR (length codes)) in *. set (q := prev + _).
    assert (prev + 1 <= q) as H1.
    { unfold q. apply Rplus_le_compat_l. apply Rmult_le_reg_r with (1 + (L + 1)); [lra|].
      unfold Rdiv. rewrite Rmult_assoc, Rinv_l by lra. lra. }
    assert (q + L <= INR n) as H2.
    { apply Rmult_le_reg_r with (1 + (L + 1)); [lra|]. unfold q.
      replace ((prev + (INR n + 1 - prev) / (1 + (L + 1)) + L) * (1 + (L + 1)))
        with ((prev + L) * (L + 2) + (INR n + 1 - prev)) by (field; lra).
      assert (0 <= (INR n - prev - L - 1) * (L + 1)) by (apply Rmult_le_pos; lra). nra. }
    destruct (IH q H2) as [S F].
    split.
    + constructor; [assumption|]. eapply Forall_impl; [|exact F]. simpl. intros. lra.
    + constructor; [lra|]. eapply Forall_impl; [|exact F]. simpl. intros. lra.
  - apply IH. lra.
Qed.

Lemma StronglySorted_map {A B} (R1 : A -> A -> Prop) (R2 : B -> B -> Prop) (g : A -> B) l :
  (forall x y, R1 x y -> R2 (g x) (g y)) -> StronglySorted R1 l -> StronglySorted R2 (map g l).
Proof.
  intros H. induction 1 as [|x r Hr IH Hx]; simpl; constructor; [assumption|].
  apply Forall_map. eapply Forall_impl; [|exact Hx]. auto.
Qed.

Lemma plotting_positions_range a rows x y :
  a_value a < 1 -> plotting_positions_sorted a rows = Ok (x, y) ->
  StronglySorted Rlt y /\ Forall (fun p => 0 < p < 1) y.
Proof.
  intros H1 H. apply sorted_inv in H as (Ha & -> & H). apply positions_inv in H as (Hn & Hd & ->).
  rewrite ?(map_length snd rows) in *. set (av := a_value a) in *. set (n := INR (length rows)) in *.
  destruct (rank_loop_bounds (length rows) (map snd rows) 0) as [S F].
  { rewrite map_length. lra. }
  assert (1 <= n) as Hn1.
  { apply (le_INR 1). rewrite nf_map in Hn. unfold n_failed in Hn. destruct rows; simpl in *; lia. }
  assert (0 < n + 1 - 2 * av) as Hpos by lra.
  split.
  - eapply StronglySorted_map; [|exact S]. intros p q Hpq. simpl.
    apply Rmult_lt_compat_r; [now apply Rinv_0_lt_compat|lra].
  - apply Forall_map. eapply Forall_impl; [|exact F]. simpl. fold n. intros r Hr. split.
    + apply Rdiv_lt_0_compat; lra.
    + apply Rmult_lt_reg_r with (n + 1 - 2 * av); [assumption|].
      unfold Rdiv. rewrite Rmult_assoc, Rinv_l by lra. lra.
Qed.

(** No censoring. *)
Lemma rank_loop_uncensored n s prev :
  prev + INR s = INR n ->
  rank_loop n prev (failure_reverse_i (repeat true s)) = map (fun i => prev + INR i) (seq 1 s).
Proof.
  revert prev. induction s as [|s IH]; intros prev H; [reflexivity|].
  cbn [repeat failure_reverse_i rank_loop]. rewrite repeat_length. rewrite S_INR in *.
  pose proof (pos_INR s).
  replace (prev + (INR n + 1 - prev) / (1 + (INR s + 1))) with (prev + 1).
  2:{ replace (INR n) with (prev + INR s + 1) by lra. field. lra. }
  rewrite IH by lra. cbn [seq map]. rewrite <- (seq_shift s 1), map_map. f_equal.
  apply map_ext. intros i. rewrite S_INR. ring.
Qed.

Lemma repeat_true_codes (rows : list row) : (forall r, In r rows -> snd r = true) ->
  map snd rows = repeat true (length rows).
Proof.
  induction rows as [|r rows IH]; intros H; [reflexivity|]. simpl. rewrite (H r) by now left.
  f_equal. apply IH. intros s Hs. apply H. now right.
Qed.

Lemma plotting_positions_uncensored a rows x y :
  (forall r, In r rows -> snd r = true) ->
  plotting_positions_sorted a rows = Ok (x, y) ->
  x = map fst rows /\
  y = map (fun i => (INR i - a_value a) / (INR (length rows) + 1 - 2 * a_value a))
        (seq 1 (length rows)).
Proof.
  intros Hall H. apply sorted_inv in H as (Ha & -> & H). apply positions_inv in H as (Hn & Hd & ->).
  rewrite ?(map_length snd rows) in *. split.
  - unfold failure_times. f_equal. clear -Hall. induction rows as [|r rows IH]; [reflexivity|].
    simpl. rewrite (Hall r) by now left. f_equal. apply IH. intros; apply Hall; now right.
  - rewrite repeat_true_codes by assumption. rewrite rank_loop_uncensored by ring.
    rewrite map_map. apply map_ext. intros i. f_equal. ring.
Qed.

(** sort=False *)
Lemma indexed_fst (rows : list row) : map fst (indexed rows) = seq 0 (length rows).
Proof.
  unfold indexed. generalize 0%nat. induction rows as [|r rows IH]; intros k; simpl; [reflexivity|].
  now rewrite IH.
Qed.

Lemma indexed_snd (rows : list row) : map snd (indexed rows) = rows.
Proof.
  unfold indexed. generalize 0%nat. induction rows as [|r rows IH]; intros k; simpl; [reflexivity|].
  now rewrite IH.
Qed.

Lemma indexed_nth (rows : list row) i r : In (i, r) (indexed rows) <-> nth_error rows i = Some r.
Proof.
  unfold indexed.
  assert (forall rows k, In (i, r) (combine (seq k (length rows)) rows) <->
           (k <= i)%nat /\ nth_error rows (i - k) = Some r) as H.
  { clear. induction rows as [|s rows IH]; intros k; simpl.
    - split; [tauto|]. intros [_ H]. destruct (i - k)%nat; discriminate.
    - rewrite IH. split.
      + intros [E|[L E]].
        * inversion E; subst. rewrite Nat.sub_diag. split; [lia|reflexivity].
        * split; [lia|]. replace (i - k)%nat with (S (i - S k)) by lia. exact E.
      + intros [L E]. destruct (Nat.eq_dec i k) as [->|N].
        * left. rewrite Nat.sub_diag in E. simpl in E. congruence.
        * right. split; [lia|]. replace (i - k)%nat with (S (i - S k)) in E by lia. exact E. }
  rewrite H, Nat.sub_0_r. split; [tauto|]. intros; split; [lia|assumption].
Qed.

Lemma keys_seq_nth {A} (l : list (nat * A)) m i v :
  map fst l = seq 0 m -> In (i, v) l -> nth_error l i = Some (i, v).
Proof.
  intros E H. apply In_nth_error in H as (j & Hj).
  assert (nth_error (map fst l) j = Some i) as H1 by (rewrite nth_error_map, Hj; reflexivity).
  rewrite E in H1.
  assert (j < m)%nat. { rewrite <- (seq_length m 0). apply nth_error_Some. congruence. }
  rewrite (nth_error_nth' _ 0%nat) in H1 by now rewrite seq_length.
  rewrite seq_nth in H1 by assumption. inversion H1; subst. exact Hj.
Qed.

Lemma idx_sort_keys {A} (l : list (nat * A)) m :
  Permutation (map fst l) (seq 0 m) -> map fst (isort idx_leb l) = seq 0 m.
Proof.
  intros P.
  apply (sorted_perm_eq Nat.leb).
  - apply nat_order.
  - apply nat_order.
  - assert (sorted idx_leb (isort idx_leb l)) as S.
    { apply isort_sorted; unfold idx_leb; intros.
      - apply nat_order.
      - eapply nat_order; eauto. }
    eapply StronglySorted_map; [|exact S]. intros x y H. exact H.
  - clear. assert (forall k, sorted Nat.leb (seq k m)) as H; [|apply H].
    induction m as [|m IH]; intros k; simpl; constructor; [apply IH|].
    apply Forall_forall. intros j Hj. apply in_seq in Hj. apply Nat.leb_le. lia.
  - rewrite <- P. apply Permutation_map. symmetry. apply isort_perm.
Qed.

Lemma all_rows_nth_failure f rc i t :
  nth_error (all_rows f rc) i = Some (t, true) <-> nth_error f i = Some t.
Proof.
  unfold all_rows. destruct (Nat.lt_ge_cases i (length f)) as [L|L].
  - rewrite nth_error_app1 by now rewrite map_length. rewrite nth_error_map.
    destruct (nth_error f i); simpl; split; congruence.
  - rewrite nth_error_app2 by now rewrite map_length. rewrite nth_error_map, map_length.
    assert (nth_error f i = None) as -> by now apply nth_error_None.
    destruct (nth_error rc _); simpl; split; congruence.
Qed.

Lemma map_snd_combine {A B} (l1 : list A) (l2 : list B) :
  length l1 = length l2 -> map snd (combine l1 l2) = l2.
Proof. revert l2. induction l1; intros [|] H; simpl in *; try discriminate; f_equal; auto. Qed.
Lemma map_fst_combine {A B} (l1 : list A) (l2 : list B) :
  length l1 = length l2 -> map fst (combine l1 l2) = l1.
Proof. revert l2. induction l1; intros [|] H; simpl in *; try discriminate; f_equal; auto. Qed.

Lemma nth_error_combine {A B} (l1 : list A) (l2 : list B) k a b :
  nth_error l1 k = Some a -> nth_error l2 k = Some b -> nth_error (combine l1 l2) k = Some (a, b).
Proof.
  revert l2 k. induction l1 as [|a1 l1 IH]; intros [|b1 l2] [|k]; simpl; try discriminate.
  - congruence.
  - apply IH.
Qed.

Lemma n_failed_idx (rows : list (nat * row)) :
  n_failed (map snd rows) = length (filter (fun p => snd (snd p)) rows).
Proof. unfold n_failed. induction rows as [|[i [t []]] r IH]; simpl; auto. Qed.

Lemma failure_keys f rc rows :
  Permutation (indexed (all_rows f rc)) rows ->
  Permutation (map fst (filter (fun p => snd (snd p)) rows)) (seq 0 (length f)).
Proof.
  intros P. transitivity (map fst (filter (fun p => snd (snd p)) (indexed (all_rows f rc)))).
  - apply Permutation_map. clear -P. symmetry. induction P as [|x l1 l2 P IH|x y l|]; simpl; auto.
    + destruct (snd (snd x)); auto.
    + destruct (snd (snd x)), (snd (snd y)); auto. constructor.
    + etransitivity; eassumption.
  - apply NoDup_Permutation.
    + apply (NoDup_map_inv (fun n => n)). rewrite map_id.
      assert (forall l : list (nat * row), NoDup (map fst l) ->
                NoDup (map fst (filter (fun p => snd (snd p)) l))) as H.
      { induction l as [|p l IH]; simpl; intros H; [constructor|].
        inversion H; subst. destruct (snd (snd p)); simpl; auto. constructor; auto.
        intros Hin. apply in_map_iff in Hin as (q & Eq & Hq). apply filter_In in Hq as [Hq _].
        apply H2. rewrite <- Eq. now apply in_map. }
      apply H. rewrite indexed_fst. apply seq_NoDup.
    + apply seq_NoDup.
    + intros i. split; intros H.
      * apply in_map_iff in H as ((j & [t c]) & <- & H). apply filter_In in H as [H Hc].
        simpl in Hc. subst c. apply indexed_nth, all_rows_nth_failure in H. simpl.
        apply in_seq. split; [lia|]. simpl. apply nth_error_Some. congruence.
      * apply in_seq in H as [_ H]. simpl in H.
        destruct (nth_error f i) as [t|] eqn:E; [|apply nth_error_None in E; lia].
        apply in_map_iff. exists (i, (t, true)). split; [reflexivity|].
        apply filter_In. split; [|reflexivity]. now apply indexed_nth, all_rows_nth_failure.
Qed.

Lemma plotting_positions_restores f rc a rows x y :
  Permutation (indexed (all_rows f rc)) rows ->
  plotting_positions_unsorted a rows = Ok (x, y) ->
  x = f /\ length y = length f /\
  exists xs ys, plotting_positions_sorted a (map snd rows) = Ok (xs, ys) /\
    forall pre i t post, rows = pre ++ (i, (t, true)) :: post ->
      nth_error f i = Some t /\
      nth_error y i = nth_error ys (n_failed (map snd pre)).
Proof.
  intros P H. unfold plotting_positions_unsorted in H. unfold plotting_positions_sorted.
  destruct (check_a a) as [av|]; simpl in *; [|discriminate].
  destruct (positions av (map snd (map snd rows))) as [ys|] eqn:E; simpl in *; [|discriminate].
  inversion H; subst. clear H.
  apply positions_inv in E as (Hn & _ & Ey).
  set (frows := filter (fun p => snd (snd p)) rows) in *.
  assert (length ys = length frows) as HL.
  { rewrite Ey, map_length, rank_loop_length, failure_reverse_i_length, nf_map. apply n_failed_idx. }
  set (l := combine (map fst frows) (combine (map (fun p => fst (snd p)) frows) ys)) in *.
  pose proof (failure_keys f rc rows P) as PK. fold frows in PK.
  assert (length (combine (map (fun p => fst (snd p)) frows) ys) = length frows) as HLc.
  { rewrite combine_length, map_length, HL. apply Nat.min_id. }
  assert (map fst l = map fst frows) as EK.
  { unfold l. apply map_fst_combine. now rewrite map_length, HLc. }
  assert (map fst (isort idx_leb l) = seq 0 (length f)) as ES.
  { apply idx_sort_keys. now rewrite EK. }
  assert (length (isort idx_leb l) = length f) as HLs.
  { rewrite <- (map_length fst), ES. apply seq_length. }
  assert (forall i t, nth_error f i = Some t ->
            exists v, nth_error (isort idx_leb l) i = Some (i, (t, v)) /\
              forall pre post, rows = pre ++ (i, (t, true)) :: post ->
                nth_error ys (n_failed (map snd pre)) = Some v) as Key.
  { intros i t Hi. apply (all_rows_nth_failure f rc), indexed_nth in Hi.
    apply (Permutation_in _ P) in Hi. apply in_split in Hi as (pre & post & Er).
    assert (frows = filter (fun p => snd (snd p)) pre ++ (i, (t, true)) ::
                    filter (fun p => snd (snd p)) post) as Ef.
    { unfold frows. rewrite Er, filter_app. reflexivity. }
    set (k := length (filter (fun p => snd (snd p)) pre)).
    assert (nth_error frows k = Some (i, (t, true))) as Hk.
    { rewrite Ef, nth_error_app2 by (unfold k; lia). unfold k. now rewrite Nat.sub_diag. }
    destruct (nth_error ys k) as [v|] eqn:Ev.
    2:{ apply nth_error_None in Ev. assert (k < length frows)%nat by (apply nth_error_Some; congruence). lia. }
    exists v. split.
    - apply (keys_seq_nth _ (length f)); [assumption|].
      eapply Permutation_in; [apply isort_perm|]. apply (nth_error_In _ k).
      unfold l. apply nth_error_combine; [now rewrite nth_error_map, Hk|].
      apply nth_error_combine; [now rewrite nth_error_map, Hk|assumption].
    - intros pre' post' Er'.
      assert (pre' = pre) as ->.
      { assert (NoDup (map fst rows)) as ND.
        { eapply Permutation_NoDup; [apply Permutation_map; exact P|]. rewrite indexed_fst. apply seq_NoDup. }
        rewrite Er in Er'. rewrite Er, map_app in ND. simpl in ND.
        clear -Er' ND. revert pre' Er'. induction pre as [|p pre IH]; intros [|p' pre'] E; simpl in *.
        - reflexivity.
        - inversion E; subst. inversion ND; subst. exfalso. apply H1.
          rewrite map_app. apply in_or_app. right. now left.
        - inversion E; subst. inversion ND; subst. exfalso. apply H1.
          apply in_or_app. right. now left.
        - inversion E; subst. inversion ND; subst. f_equal. now apply IH. }
      rewrite n_failed_idx. fold k. assumption. }
  split; [|split].
  - apply nth_error_ext || idtac.
    assert (forall (l1 l2 : list R), length l1 = length l2 ->
              (forall i t, nth_error l2 i = Some t -> nth_error l1 i = Some t) -> l1 = l2) as EX.
    { clear. induction l1 as [|a l1 IH]; intros [|b l2] HL H; simpl in *; try discriminate; [reflexivity|].
      f_equal.
      - specialize (H 0%nat b eq_refl). simpl in H. congruence.
      - apply IH; [lia|]. intros i t Hi. apply (H (S i)). exact Hi. }
    apply EX; [now rewrite map_length|].
    intros i t Hi. destruct (Key i t Hi) as (v & Hv & _). now rewrite nth_error_map, Hv.
  - now rewrite map_length.
  - eexists _, _. split; [reflexivity|]. intros pre i t post Er.
    assert (nth_error f i = Some t) as Hi.
    { apply (all_rows_nth_failure f rc), indexed_nth. eapply Permutation_in; [symmetry; exact P|].
      rewrite Er. apply in_or_app. right. now left. }
    split; [assumption|]. destruct (Key i t Hi) as (v & Hv & Hp).
    rewrite nth_error_map, Hv. simpl. symmetry. eauto.
Qed.
