From Flocq Require Import Core Relative.
From Coq Require Import List Arith Reals Bool Lra Lia Psatz.
From Verif Require Import Base FloatModel FloatSpec FloatProofs.
Import ListNotations.
Open Scope R_scope.

(** * Rounded sums of 1/r *)
Section Sum.
  Variable c : nat -> bool.
  Variable r : nat -> nat.
  Variable N : nat.
  Hypothesis HN : INR N <= 2 ^ 50.
  Hypothesis r_pos : forall i, (i < N)%nat -> c i = true -> (0 < r i)%nat.
  Hypothesis r_big : forall i, (i < N)%nat -> INR (r i) <= 2 ^ 50.
  Hypothesis r_dec : forall i j, (i <= j < N)%nat -> (r j <= r i)%nat.

  Fixpoint g (k : nat) : R :=
    match k with O => 0 | S k => if c k then fadd (g k) (rnd (1 / INR (r k))) else g k end.
  Fixpoint x (k : nat) : R :=
    match k with O => 0 | S k => (if c k then 1 / INR (r k) else 0) + x k end.

  Lemma x_nonneg k : 0 <= x k.
  Proof.
    induction k as [|k IH]; [apply Rle_refl|]. simpl. destruct (c k); [|lra].
    assert (0 <= 1 / INR (r k)); [|lra]. unfold Rdiv. rewrite Rmult_1_l.
    destruct (r k) as [|m]; [simpl; rewrite Rinv_0; lra|]. apply Rlt_le, Rinv_0_lt_compat, lt_0_INR. lia.
  Qed.

  Lemma g_fmt k : fmt (g k).
  Proof. induction k as [|k IH]; [apply fmt_0|]. simpl. destruct (c k); [apply rnd_fmt|exact IH]. Qed.

  Lemma term_low i : (i < N)%nat -> c i = true -> / 2 ^ 50 <= 1 / INR (r i).
  Proof.
    intros H Hc. unfold Rdiv. rewrite Rmult_1_l. apply Rinv_le_contravar; [apply lt_0_INR, r_pos; assumption|].
    apply r_big, H.
  Qed.

  Lemma inv_60_50 : 2 * / 2 ^ 60 <= / 2 ^ 50.
  Proof. rewrite (pow_IZR 2 60), (pow_IZR 2 50). simpl. lra. Qed.

  Lemma term_within i : (i < N)%nat -> c i = true -> within_roundings 1 (1 / INR (r i)) (rnd (1 / INR (r i))).
  Proof.
    intros H Hc. pose proof (term_low i H Hc) as L. pose proof inv_60_50.
    assert (0 < / 2 ^ 60) by (apply Rinv_0_lt_compat, pow_lt; lra).
    apply within_rnd; [lra| |lra]. apply within_refl. lra.
  Qed.

  Lemma u_small : u <= 1 / 8.
  Proof. unfold u. rewrite pow2_num. lra. Qed.

  Lemma g_within k : (k <= N)%nat -> within_roundings (S k) (x k) (g k).
  Proof.
    induction k as [|k IH]; intros H; [apply within_refl; simpl; lra|].
    specialize (IH ltac:(lia)). simpl g. simpl x. pose proof (x_nonneg k) as X.
    destruct (c k) eqn:E.
    - pose proof (term_within k ltac:(lia) E) as W. pose proof (term_low k ltac:(lia) E) as L.
      pose proof inv_60_50. assert (0 < / 2 ^ 60) by (apply Rinv_0_lt_compat, pow_lt; lra).
      assert (within_roundings (S k) (1 / INR (r k)) (rnd (1 / INR (r k)))) as W'.
      { apply within_weaken with 1%nat; [lia|lra|exact W]. }
      rewrite (Rplus_comm _ (x k)). unfold fadd. apply within_rnd; [lra|apply within_plus; assumption|].
      pose proof (within_pos _ _ _ IH X). destruct W as [W _]. fold u in W. rewrite pow_1 in W.
      pose proof u_small. nra.
    - rewrite Rplus_0_l. apply within_weaken with (S k); auto.
  Qed.

  Lemma x_bound k : (k < N)%nat -> c k = true -> x k <= INR k * (1 / INR (r k)).
  Proof.
    intros H Hc. assert (forall j, (j <= k)%nat -> x j <= INR j * (1 / INR (r k))) as G; [|apply G; lia].
    assert (0 < INR (r k)) as P by (apply lt_0_INR, r_pos; assumption).
    assert (0 < 1 / INR (r k)) by (unfold Rdiv; rewrite Rmult_1_l; apply Rinv_0_lt_compat; assumption).
    induction j as [|j IH]; intros Hj; [simpl; lra|].
    rewrite S_INR. simpl x. specialize (IH ltac:(lia)). destruct (c j) eqn:E; [|lra].
    assert (1 / INR (r j) <= 1 / INR (r k)); [|lra].
    unfold Rdiv. rewrite !Rmult_1_l. apply Rinv_le_contravar; [exact P|]. apply le_INR, r_dec. lia.
  Qed.

  Lemma g_nonneg k : (k <= N)%nat -> 0 <= g k.
  Proof. intros H. exact (within_pos _ _ _ (g_within k H) (x_nonneg k)). Qed.

  Lemma g_same k : c k = false -> g (S k) = g k.
  Proof. intros E. simpl. now rewrite E. Qed.

  Lemma g_rises k : (k < N)%nat -> c k = true -> g k < g (S k).
  Proof.
    intros H E. simpl. rewrite E. unfold fadd.
    pose proof (term_within k ltac:(lia) E) as W. pose proof (term_low k ltac:(lia) E) as L.
    destruct W as [W _]. fold u in W. rewrite pow_1 in W. set (t := 1 / INR (r k)) in *.
    pose proof (x_bound k H E) as B. fold t in B.
    pose proof (g_nonneg k ltac:(lia)) as G0.
    destruct (g_within k ltac:(lia)) as [_ G]. fold u in G.
    pose proof inv_60_50. assert (0 < / 2 ^ 60) by (apply Rinv_0_lt_compat, pow_lt; lra).
    pose proof u_small. pose proof u_pos.
    assert (INR k <= INR N) as KN by (apply le_INR; lia).
    pose proof (big_u k ltac:(lra)) as BU.
    assert ((1 + u) ^ S k <= 2) as P2.
    { apply pow_up_bound. rewrite S_INR. lra. }
    pose proof (x_nonneg k).
    assert (g k <= 2 * x k) as G2 by (assert (0 <= (1 + u) ^ S k) by (apply pow_le; lra); nra).
    assert (u * g k <= t / 4) as UG.
    { assert (u * g k <= 2 * (u * (INR k * t))) by nra. assert (u * (INR k * t) <= t / 8); [|lra].
      replace (u * (INR k * t)) with ((INR k * u) * t) by ring. nra. }
    destruct (rnd_rel (g k + rnd t)) as [R1 _]; [nra|]. nra.
  Qed.
End Sum.

(** * Nelson-Aalen *)
Lemma fsum_app h a : fsum (h ++ [a]) = fadd (fsum h) a.
Proof. unfold fsum. now rewrite fold_left_app. Qed.

Definition risk (n i : nat) : nat := n - i.

Definition hz (codes : list bool) (k : nat) : R := g (failed codes) (risk (length codes)) k.

Lemma hz_x codes k : x (failed codes) (risk (length codes)) k = hazard codes k.
Proof.
  induction k as [|k IH]; [reflexivity|]. unfold hazard. rewrite seq_S, map_app. simpl map. rewrite fold_plus_app.
  simpl. rewrite IH. reflexivity.
Qed.

Lemma fna_nth ex codes : forall pre h, INR (length (pre ++ codes)) <= 2 ^ 50 ->
  fsum h = hz (pre ++ codes) (length pre) ->
  forall k, (k < length codes)%nat ->
  nth_error (fna_loop ex h codes) k =
  Some (hz (pre ++ codes) (S (length pre + k)), ex (- hz (pre ++ codes) (S (length pre + k)))).
Proof.
  induction codes as [|c rest IH]; intros pre h HN HH k Hk; [simpl in Hk; lia|].
  cbn [fna_loop]. cbv zeta.
  assert (fsum (h ++ [fdiv (float_code c) (float_of (S (length rest)))]) = hz (pre ++ c :: rest) (S (length pre))) as ES.
  { rewrite fsum_app, HH. unfold hz. cbn [g].
    assert (failed (pre ++ c :: rest) (length pre) = c) as ->.
    { unfold failed. rewrite app_nth2 by lia. now rewrite Nat.sub_diag. }
    assert (risk (length (pre ++ c :: rest)) (length pre) = S (length rest)) as ->.
    { unfold risk. rewrite app_length. simpl. lia. }
    rewrite float_of_eq.
    2:{ apply le_50_53. eapply Rle_trans; [apply le_INR|exact HN]. rewrite app_length. simpl. lia. }
    destruct c; simpl float_code; [reflexivity|].
    unfold fdiv. replace (0 / INR (S (length rest))) with 0 by (unfold Rdiv; ring). rewrite rnd_0.
    unfold fadd. rewrite Rplus_0_r. apply rnd_id, g_fmt. }
  destruct k as [|k].
  - rewrite Nat.add_0_r. cbn [nth_error]. now rewrite ES.
  - cbn [nth_error]. replace (pre ++ c :: rest) with ((pre ++ [c]) ++ rest) in * by (rewrite <- app_assoc; reflexivity).
    rewrite (IH (pre ++ [c])).
    + rewrite app_length. simpl length. replace (length pre + 1 + k)%nat with (length pre + S k)%nat by lia. reflexivity.
    + exact HN.
    + rewrite ES. f_equal. rewrite app_length. simpl. lia.
    + simpl in Hk. lia.
Qed.

Lemma fna_value ex codes k : INR (length codes) <= 2 ^ 50 -> (k < length codes)%nat ->
  nth_error (fna ex codes) k = Some (hz codes (S k), ex (- hz codes (S k))).
Proof. intros HN Hk. exact (fna_nth ex codes [] [] HN eq_refl k Hk). Qed.

Section NA.
  Variable codes : list bool.
  Hypothesis HN : INR (length codes) <= 2 ^ 50.
  Lemma na_r_pos : forall i, (i < length codes)%nat -> failed codes i = true -> (0 < risk (length codes) i)%nat.
  Proof. intros. unfold risk. lia. Qed.
  Lemma na_r_big : forall i, (i < length codes)%nat -> INR (risk (length codes) i) <= 2 ^ 50.
  Proof. intros. eapply Rle_trans; [apply le_INR|exact HN]. unfold risk. lia. Qed.
  Lemma na_r_dec : forall i j, (i <= j < length codes)%nat -> (risk (length codes) j <= risk (length codes) i)%nat.
  Proof. intros. unfold risk. lia. Qed.

  Lemma hz_within k : (k <= length codes)%nat -> within_roundings (S k) (hazard codes k) (hz codes k).
  Proof. intros H. rewrite <- hz_x. apply (g_within _ _ (length codes)); auto using na_r_pos, na_r_big. Qed.
  Lemma hz_rises k : (k < length codes)%nat -> failed codes k = true -> hz codes k < hz codes (S k).
  Proof. intros H E. apply (g_rises _ _ (length codes)); auto using na_r_pos, na_r_big, na_r_dec. Qed.
  Lemma hz_same k : failed codes k = false -> hz codes (S k) = hz codes k.
  Proof. apply g_same. Qed.
  Lemma hz_nonneg k : (k <= length codes)%nat -> 0 <= hz codes k.
  Proof. intros H. apply (g_nonneg _ _ (length codes)); auto using na_r_pos, na_r_big. Qed.
End NA.

(** * MCF *)
Definition left_at (m : nat) (states : list bool) (i : nat) : nat := systems_left m states i.
Definition mv (m : nat) (states : list bool) (k : nat) : R := g (failed states) (systems_left m states) k.

Lemma mv_x m states k : x (failed states) (systems_left m states) k = mean_repairs m states k.
Proof.
  induction k as [|k IH]; [reflexivity|]. unfold mean_repairs. rewrite seq_S, map_app. simpl map. rewrite fold_plus_app.
  simpl. rewrite IH. reflexivity.
Qed.

(** The array after the first [i] events, and the entry looked up next. *)
Definition entry_at (m : nat) (states : list bool) (i : nat) : option R :=
  if failed states i then Some (mv m states (S i)) else None.

Definition seen (states : list bool) (i : nat) : Prop := exists j, (j < i)%nat /\ failed states j = true.

Lemma failed_app pre c rest : failed (pre ++ c :: rest) (length pre) = c.
Proof. unfold failed. rewrite app_nth2 by lia. now rewrite Nat.sub_diag. Qed.

Lemma firstn_pre {A} (pre l : list A) : firstn (length pre) (pre ++ l) = pre.
Proof. rewrite firstn_app, Nat.sub_diag, firstn_all. simpl. apply app_nil_r. Qed.

Lemma entries_S m states i : map (entry_at m states) (seq 0 (S i)) = map (entry_at m states) (seq 0 i) ++ [entry_at m states i].
Proof. rewrite seq_S, map_app. reflexivity. Qed.

Lemma mv_unseen m states i : ~ seen states i -> mv m states i = 0.
Proof.
  unfold mv. induction i as [|i IH]; intros H; [reflexivity|]. cbn [g].
  destruct (failed states i) eqn:E; [exfalso; apply H; exists i; auto|]. apply IH.
  intros (j & Hj & Ej). apply H. exists j. split; [lia|exact Ej].
Qed.

Lemma left_next m pre c rest :
  systems_left m (pre ++ c :: rest) (S (length pre)) = (systems_left m (pre ++ c :: rest) (length pre) - (if c then 0 else 1))%nat.
Proof.
  unfold systems_left. rewrite firstn_pre.
  replace (firstn (S (length pre)) (pre ++ c :: rest)) with (pre ++ [c]).
  - rewrite filter_app, app_length. destruct c; simpl; lia.
  - replace (S (length pre)) with (length (pre ++ [c])) by (rewrite app_length; simpl; lia).
    replace (pre ++ c :: rest) with ((pre ++ [c]) ++ rest) by (rewrite <- app_assoc; reflexivity).
    symmetry. apply firstn_pre.
Qed.

Lemma fmcf_entries m : INR m <= 2 ^ 50 -> forall rest pre C_seq arr cur out,
  arr = map (entry_at m (pre ++ rest)) (seq 0 (length pre)) ->
  ((length pre = 0 /\ C_seq = 0 /\ cur = None)%nat \/
   (C_seq + 1 <= length pre /\ nth_error arr (length pre - C_seq - 1) = Some cur)%nat) ->
  match cur with None => mv m (pre ++ rest) (length pre) = 0 | Some v => v = mv m (pre ++ rest) (length pre) end ->
  fmcf_loop rest (length pre) (systems_left m (pre ++ rest) (length pre)) C_seq arr = Ok out ->
  out = map (entry_at m (pre ++ rest)) (seq 0 (length (pre ++ rest))) /\
  (forall i, (length pre <= i < length (pre ++ rest))%nat -> failed (pre ++ rest) i = true -> (0 < systems_left m (pre ++ rest) i)%nat).
Proof.
  intros HM. induction rest as [|c rest IH]; intros pre C_seq arr cur out HA HC HV HL.
  - cbn [fmcf_loop] in HL. rewrite app_nil_r in *. injection HL as <-. split; [exact HA|]. intros i Hi. lia.
  - cbn [fmcf_loop] in HL. set (st := pre ++ c :: rest) in *.
    assert (st = (pre ++ [c]) ++ rest) as ES by (unfold st; rewrite <- app_assoc; reflexivity).
    assert (length (pre ++ [c]) = S (length pre)) as EL by (rewrite app_length; simpl; lia).
    assert (failed st (length pre) = c) as EF by (apply failed_app).
    assert (systems_left m st (S (length pre)) = (systems_left m st (length pre) - (if c then 0 else 1))%nat) as EN
      by (apply left_next).
    assert (length arr = length pre) as LA by (rewrite HA, map_length, seq_length; reflexivity).
    specialize (IH (pre ++ [c])). rewrite <- ES, EL in IH.
    assert (INR (systems_left m st (length pre)) <= 2 ^ 53) as HR.
    { apply le_50_53. eapply Rle_trans; [apply le_INR|exact HM]. unfold systems_left. lia. }
    destruct c.
    + rewrite Nat.sub_0_r in EN. rewrite EN in IH.
      set (r := systems_left m st (length pre)) in *. rewrite float_of_eq in HL by exact HR. fold (fdiv 1 (INR r)) in HL.
      destruct (Nat.eqb_spec r 0) as [|Hr]; [discriminate HL|].
      assert (mv m st (S (length pre)) = fadd (mv m st (length pre)) (rnd (1 / INR r))) as EM.
      { unfold mv. cbn [g]. rewrite EF. reflexivity. }
      assert (forall v, v = mv m st (S (length pre)) ->
        fmcf_loop rest (S (length pre)) r 0 (arr ++ [Some v]) = Ok out ->
        out = map (entry_at m st) (seq 0 (length st)) /\
        (forall i, (length pre <= i < length st)%nat -> failed st i = true -> (0 < systems_left m st i)%nat)) as G.
      { intros v Ev HL'. destruct (IH 0%nat (arr ++ [Some v]) (Some v) out) as [I1 I2]; auto.
        - rewrite entries_S, HA. unfold entry_at at 3. rewrite EF, Ev. reflexivity.
        - right. split; [lia|]. replace (S (length pre) - 0 - 1)%nat with (length arr) by lia.
          rewrite nth_error_app2 by lia. rewrite Nat.sub_diag. reflexivity.
        - split; [exact I1|]. intros i Hi Fi. destruct (Nat.eq_dec i (length pre)) as [->|]; [fold r; lia|].
          apply I2; [lia|exact Fi]. }
      assert (fdiv 1 (INR r) = fadd 0 (rnd (1 / INR r))) as E0.
      { unfold fadd, fdiv. rewrite Rplus_0_l. symmetry. apply rnd_id, rnd_fmt. }
      destruct (Nat.eqb_spec (length pre) 0) as [EZ|EZ].
      * destruct HC as [(_ & _ & ->)|[? _]]; [|lia]. apply (G (fdiv 1 (INR r))).
        -- rewrite EM, HV. exact E0.
        -- rewrite EZ. exact HL.
      * destruct HC as [(? & _)|[HC Hn]]; [lia|].
        destruct (Nat.ltb_spec (length pre) (C_seq + 1)) as [?|_]; [lia|].
        rewrite Hn in HL. destruct cur as [v|].
        -- apply (G (fadd (fdiv 1 (INR r)) v)); [|exact HL]. rewrite EM, HV. unfold fadd, fdiv. f_equal. ring.
        -- apply (G (fdiv 1 (INR r))); [|exact HL]. rewrite EM, HV. exact E0.
    + rewrite <- EN in HL.
      destruct (IH (if (length pre =? 0)%nat then C_seq else S C_seq) (arr ++ [None]) cur out) as [I1 I2]; auto.
      * rewrite entries_S, HA. unfold entry_at at 3. rewrite EF. reflexivity.
      * right. destruct HC as [(E1 & E2 & E3)|[HC Hn]].
        -- rewrite E1, E2, E3. simpl. split; [lia|]. destruct arr as [|a0 arr0]; [reflexivity|]. rewrite E1 in LA. discriminate LA.
        -- destruct (Nat.eqb_spec (length pre) 0); [lia|]. split; [lia|].
           replace (S (length pre) - S C_seq - 1)%nat with (length pre - C_seq - 1)%nat by lia.
           rewrite nth_error_app1; [exact Hn|]. apply nth_error_Some. congruence.
      * assert (mv m st (S (length pre)) = mv m st (length pre)) as -> by (apply g_same; exact EF). exact HV.
      * split; [exact I1|]. intros i Hi Fi. destruct (Nat.eq_dec i (length pre)) as [->|]; [congruence|].
        apply I2; [lia|exact Fi].
Qed.

Lemma fmcf_inv m states out : INR m <= 2 ^ 50 -> fmcf m states = Ok out ->
  out = map (entry_at m states) (seq 0 (length states)) /\
  (forall i, (i < length states)%nat -> failed states i = true -> (0 < systems_left m states i)%nat).
Proof.
  intros HM H. unfold fmcf in H.
  assert (m = systems_left m states 0) as E by (unfold systems_left; simpl; lia).
  rewrite E in H at 1.
  destruct (fmcf_entries m HM states [] 0%nat [] None out eq_refl) as [I1 I2]; auto.
  split; [exact I1|]. intros i Hi. apply I2. simpl. lia.
Qed.

Lemma filter_firstn_le {A} (f : A -> bool) l : forall i j, (i <= j)%nat -> (length (filter f (firstn i l)) <= length (filter f (firstn j l)))%nat.
Proof.
  induction l as [|a l IH]; intros i j H; [now rewrite !firstn_nil|].
  destruct i as [|i]; [simpl; lia|]. destruct j as [|j]; [lia|]. cbn [firstn filter].
  specialize (IH i j ltac:(lia)). destruct (f a); simpl; lia.
Qed.

Section MV.
  Variables (m : nat) (states : list bool) (out : list (option R)).
  Hypothesis HM : INR m <= 2 ^ 50.
  Hypothesis HS : INR (length states) <= 2 ^ 50.
  Hypothesis HO : fmcf m states = Ok out.

  Lemma mv_r_pos : forall i, (i < length states)%nat -> failed states i = true -> (0 < systems_left m states i)%nat.
  Proof. exact (proj2 (fmcf_inv m states out HM HO)). Qed.
  Lemma mv_r_big : forall i, (i < length states)%nat -> INR (systems_left m states i) <= 2 ^ 50.
  Proof. intros. eapply Rle_trans; [apply le_INR|exact HM]. unfold systems_left. lia. Qed.
  Lemma mv_r_dec : forall i j, (i <= j < length states)%nat -> (systems_left m states j <= systems_left m states i)%nat.
  Proof. intros i j H. unfold systems_left. pose proof (filter_firstn_le negb states i j ltac:(lia)). lia. Qed.

  Lemma mv_within k : (k <= length states)%nat -> within_roundings (S k) (mean_repairs m states k) (mv m states k).
  Proof. intros H. rewrite <- mv_x. apply (g_within _ _ (length states)); auto using mv_r_pos, mv_r_big. Qed.
  Lemma mv_rises k : (k < length states)%nat -> failed states k = true -> mv m states k < mv m states (S k).
  Proof. intros H E. apply (g_rises _ _ (length states)); auto using mv_r_pos, mv_r_big, mv_r_dec. Qed.
  Lemma mv_same k : failed states k = false -> mv m states (S k) = mv m states k.
  Proof. apply g_same. Qed.
  Lemma mv_mono i j : (i <= j <= length states)%nat -> mv m states i <= mv m states j.
  Proof.
    intros [H1 H2]. induction j as [|j IH]; [replace i with 0%nat by lia; lra|].
    destruct (Nat.eq_dec i (S j)) as [->|]; [lra|].
    specialize (IH ltac:(lia) ltac:(lia)). destruct (failed states j) eqn:E.
    - pose proof (mv_rises j ltac:(lia) E). lra.
    - rewrite mv_same by exact E. exact IH.
  Qed.
  Lemma out_nth k : (k < length states)%nat -> nth_error out k = Some (if failed states k then Some (mv m states (S k)) else None).
  Proof.
    intros H. rewrite (proj1 (fmcf_inv m states out HM HO)). rewrite nth_error_map.
    replace (nth_error (seq 0 (length states)) k) with (Some k); [reflexivity|].
    symmetry. rewrite (nth_error_nth' _ 0%nat) by (rewrite seq_length; exact H). now rewrite seq_nth.
  Qed.
  Lemma out_length : length out = length states.
  Proof. rewrite (proj1 (fmcf_inv m states out HM HO)). now rewrite map_length, seq_length. Qed.
End MV.
