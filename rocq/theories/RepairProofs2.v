(** The nonparametric mean cumulative function. *)
From Coquelicot Require Import Coquelicot.
From Coq Require Import List Arith Reals Bool Permutation Sorted Lra Lia.
From Verif Require Import Base RealFacts Gauss NonparModel NonparProofs NonparProofs2 RList RepairModel RepairSpec RepairProofs.
Import ListNotations.
Open Scope R_scope.

Lemma Rleb_true x y : Rleb x y = true <-> x <= y.
Proof. unfold Rleb. destruct (Rle_dec x y); split; congruence || lra || auto. Qed.
Lemma Rleb_false x y : Rleb x y = false <-> y < x.
Proof. unfold Rleb. destruct (Rle_dec x y); split; intros; try congruence; lra. Qed.
Lemma Rleb_order : total_order Rleb.
Proof.
  constructor; intros x y; [|intros z|]; rewrite ?Rleb_true; lra.
Qed.

Lemma event_total p q : event_leb p q = true \/ event_leb q p = true.
Proof.
  unfold event_leb. destruct (Rlt_dec (fst p) (fst q)), (Rlt_dec (fst q) (fst p)); auto.
  destruct (snd p), (snd q); auto.
Qed.
Lemma event_trans p q r : event_leb p q = true -> event_leb q r = true -> event_leb p r = true.
Proof.
  unfold event_leb.
  destruct (Rlt_dec (fst p) (fst q)), (Rlt_dec (fst q) (fst p)), (Rlt_dec (fst q) (fst r)),
    (Rlt_dec (fst r) (fst q)), (Rlt_dec (fst p) (fst r)), (Rlt_dec (fst r) (fst p));
    try (intros; congruence); try lra.
  destruct (snd p), (snd q), (snd r); auto.
Qed.

(** * The loop without index arithmetic *)
Definition nC (evs : list (R * bool)) : nat := length (filter (fun e => negb (snd e)) evs).

Definition next (r : nat) (cur : mcf_entry) : R * R :=
  match cur with
  | None => (1 / INR r, var_term r)
  | Some (m, v) => (1 / INR r + m, var_term r + v)
  end.

Fixpoint mcf_simple (evs : list (R * bool)) (r : nat) (cur : mcf_entry) : list mcf_entry :=
  match evs with
  | [] => []
  | (t, true) :: rest => Some (next r cur) :: mcf_simple rest r (Some (next r cur))
  | (t, false) :: rest => None :: mcf_simple rest (r - 1) cur
  end.

Definition loop_inv (i C_seq : nat) (arr : list mcf_entry) (cur : mcf_entry) : Prop :=
  length arr = i /\
  ((i = 0%nat /\ C_seq = 0%nat /\ cur = None) \/
   (C_seq + 1 <= i /\ nth_error arr (i - C_seq - 1) = Some cur)%nat).

Lemma mcf_loop_simple evs : forall i r C_seq arr cur,
  loop_inv i C_seq arr cur -> r = nC evs ->
  (forall pre t post, evs = pre ++ (t, true) :: post -> (0 < nC post)%nat) ->
  mcf_loop evs i r C_seq arr = Ok (arr ++ mcf_simple evs r cur).
Proof.
  induction evs as [|[t c] rest IH]; intros i r C_seq arr cur [HL Hinv] Hr Hpos.
  - simpl. now rewrite app_nil_r.
  - assert (forall pre u post, rest = pre ++ (u, true) :: post -> (0 < nC post)%nat) as Hpos'.
    { intros pre u post E. apply (Hpos ((t, c) :: pre) u post). now rewrite E. }
    cbn [mcf_loop mcf_simple]. destruct c.
    + assert (r = nC rest) as Hr' by (rewrite Hr; reflexivity).
      assert (0 < r)%nat as Hrp. { rewrite Hr'. apply (Hpos [] t rest). reflexivity. }
      destruct (Nat.eqb_spec r 0) as [E|_]; [lia|].
      assert (forall cur', loop_inv (S i) 0 (arr ++ [cur']) cur') as Hinv'.
      { intros cur'. split; [rewrite app_length; simpl; lia|]. right. split; [lia|].
        replace (S i - 0 - 1)%nat with i by lia. rewrite nth_error_app2 by lia. rewrite HL, Nat.sub_diag. reflexivity. }
      destruct (Nat.eqb_spec i 0) as [E|E].
      * subst i. destruct Hinv as [(_ & -> & ->)|[? _]]; [|lia].
        rewrite (IH _ r 0%nat _ (Some (next r None))); auto.
        -- now rewrite <- app_assoc.
        -- specialize (Hinv' (Some (next r None))). rewrite E in Hinv'. exact Hinv'.
      * destruct Hinv as [(? & _)|[HC Hn]]; [lia|].
        destruct (Nat.ltb_spec i (C_seq + 1)) as [?|_]; [lia|]. rewrite Hn.
        destruct cur as [[m v]|]; (erewrite IH; [|apply Hinv'|assumption|assumption]);
          now rewrite <- app_assoc.
    + assert ((r - 1)%nat = nC rest) as Hr'.
      { rewrite Hr. unfold nC. simpl. lia. }
      rewrite (IH _ (r - 1)%nat _ _ cur); auto.
      * now rewrite <- app_assoc.
      * split; [rewrite app_length; simpl; lia|]. right.
        destruct Hinv as [(-> & -> & ->)|[HC Hn]].
        -- simpl. split; [lia|]. destruct arr; [reflexivity|discriminate].
        -- destruct (Nat.eqb_spec i 0); [lia|]. split; [lia|].
           replace (S i - S C_seq - 1)%nat with (i - C_seq - 1)%nat by lia.
           rewrite nth_error_app1; [assumption|]. apply nth_error_Some. congruence.
Qed.

Lemma drop_ends_simple evs (risk : R -> nat) : forall r m v (cur : mcf_entry),
  r = nC evs -> match cur with None => m = 0 /\ v = 0 | Some mv => mv = (m, v) end ->
  (forall pre t post, evs = pre ++ (t, true) :: post -> nC post = risk t) ->
  let times := map fst (filter snd evs) in
  map fst (drop_ends evs (mcf_simple evs r cur)) = times /\
  map (fun p => fst (snd p)) (drop_ends evs (mcf_simple evs r cur)) = cumsum m (map (fun t => 1 / INR (risk t)) times) /\
  map (fun p => snd (snd p)) (drop_ends evs (mcf_simple evs r cur)) = cumsum v (map (fun t => var_term (risk t)) times).
Proof.
  induction evs as [|[t c] rest IH]; intros r m v cur Hr Hcur Hrisk; [repeat split|].
  assert (forall pre u post, rest = pre ++ (u, true) :: post -> nC post = risk u) as Hrisk'.
  { intros pre u post E. apply (Hrisk ((t, c) :: pre) u post). now rewrite E. }
  cbn [mcf_simple]. destruct c; cbn [drop_ends filter snd map fst cumsum].
  - assert (r = nC rest) as Hr' by (rewrite Hr; reflexivity).
    assert (nC rest = risk t) as Ht by (apply (Hrisk [] t rest); reflexivity).
    assert (next r cur = (m + 1 / INR (risk t), v + var_term (risk t))) as EN.
    { rewrite <- Ht, <- Hr'. destruct cur as [[m' v']|]; simpl.
      - injection Hcur as -> ->. f_equal; apply Rplus_comm.
      - destruct Hcur as [-> ->]. now rewrite !Rplus_0_l. }
    rewrite EN. destruct (IH r (m + 1 / INR (risk t)) (v + var_term (risk t)) (Some (m + 1 / INR (risk t), v + var_term (risk t))) Hr' eq_refl Hrisk') as (E1 & E2 & E3).
    cbn [map fst snd]. rewrite E1, E2, E3. repeat split.
  - apply IH; auto. rewrite Hr. unfold nC. simpl. lia.
Qed.

(** * Collecting the systems *)
Lemma split_last_spec l : l <> [] -> exists rep e, split_last l = (rep, [e]) /\ l = rep ++ [e].
Proof.
  induction l as [|x l IH]; intros H; [congruence|]. destruct l as [|y l].
  - exists [], x. auto.
  - destruct (IH ltac:(discriminate)) as (rep & e & E1 & E2). cbn [split_last] in *. rewrite E1.
    exists (x :: rep), e. split; [reflexivity|]. now rewrite E2.
Qed.

Lemma isort_R_sorted l : StronglySorted Rle (isort Rleb l).
Proof.
  assert (sorted Rleb (isort Rleb l)) as H by (apply isort_sorted; apply Rleb_order).
  unfold sorted in H. induction H as [|x r Hr IH Hx]; constructor; auto.
  eapply Forall_impl; [|exact Hx]. intros y. apply Rleb_true.
Qed.

Lemma last_is_rmax l rep e : isort Rleb l = rep ++ [e] -> e = rmax l.
Proof.
  intros E. pose proof (isort_R_sorted l) as HS. rewrite E in HS.
  pose proof (isort_perm Rleb l) as P. rewrite E in P.
  assert (l <> []) as Hne. { intros ->. simpl in E. destruct rep; discriminate. }
  apply Rle_antisym.
  - apply rmax_ge. eapply Permutation_in; [symmetry; exact P|]. apply in_or_app. right. now left.
  - pose proof (rmax_in l Hne) as Hin. apply (Permutation_in _ P) in Hin.
    apply in_app_or in Hin as [Hin|[->|[]]]; [|apply Rle_refl].
    clear -HS Hin. induction rep as [|x rep IH]; [destruct Hin|].
    inversion HS as [|? ? HS' HF]; subst. destruct Hin as [<-|Hin]; [|auto].
    rewrite Forall_forall in HF. apply HF. apply in_or_app. right. now left.
Qed.

Lemma collect_spec data reps ends data' : Forall (fun s => s <> []) data ->
  collect data = (reps, ends, data') ->
  ends = map rmax data /\ Permutation (reps ++ ends) (concat data) /\ data' = map (isort Rleb) data /\
  (forall t, In t reps -> exists e, In e ends /\ t <= e).
Proof.
  intros HF. revert reps ends data'. induction HF as [|s data Hs HF IH]; intros reps ends data' E.
  - cbn in E. injection E as <- <- <-. repeat split; try constructor. intros t [].
  - cbn [collect] in E.
    destruct (split_last_spec (isort Rleb s)) as (rep & e & E1 & E2).
    { intros En. apply Hs. pose proof (isort_perm Rleb s) as P. rewrite En in P. symmetry in P. now apply Permutation_nil in P. }
    rewrite E1 in E. destruct (collect data) as [[reps0 ends0] data0].
    injection E as <- <- <-. destruct (IH _ _ _ eq_refl) as (-> & P & -> & Hle).
    pose proof (last_is_rmax s rep e E2) as Ee.
    split; [cbn; now rewrite Ee|]. split; [|split].
    + cbn [concat]. rewrite <- P. rewrite (isort_perm Rleb s) at 1. rewrite E2.
      rewrite <- !app_assoc. apply Permutation_app_head.
      cbn [app]. symmetry. apply Permutation_middle.
    + reflexivity.
    + intros t Ht. apply in_app_or in Ht as [Ht|Ht].
      * exists e. split; [now left|]. rewrite Ee. apply rmax_ge.
        apply (Permutation_in _ (Permutation_sym (isort_perm Rleb s))). rewrite E2. apply in_or_app. now left.
      * destruct (Hle t Ht) as (u & Hu & Htu). exists u. split; [now right|assumption].
Qed.

(** * Events in order *)
Lemma events_perm reps ends :
  Permutation (map (fun t => (t, true)) reps ++ map (fun t => (t, false)) ends) (events reps ends).
Proof. apply isort_perm. Qed.

Lemma events_F reps ends : Permutation reps (map fst (filter snd (events reps ends))).
Proof.
  transitivity (map fst (filter snd (map (fun t => (t, true)) reps ++ map (fun t => (t, false)) ends))).
  - rewrite filter_app, map_app. rewrite filter_all, filter_none, map_map, map_id; [now rewrite app_nil_r| |];
      intros r Hr; apply in_map_iff in Hr as (t & <- & _); reflexivity.
  - apply Permutation_map, filter_perm, events_perm.
Qed.

Lemma events_C reps ends : Permutation ends (map fst (filter (fun e => negb (snd e)) (events reps ends))).
Proof.
  transitivity (map fst (filter (fun e => negb (snd e)) (map (fun t => (t, true)) reps ++ map (fun t => (t, false)) ends))).
  - rewrite filter_app, map_app. rewrite filter_none, filter_all, map_map, map_id; [reflexivity| |];
      intros r Hr; apply in_map_iff in Hr as (t & <- & _); reflexivity.
  - apply Permutation_map, filter_perm, events_perm.
Qed.

Lemma sorted_app_inv {A} (leb : A -> A -> bool) pre x post : sorted leb (pre ++ x :: post) ->
  (forall y, In y pre -> leb y x = true) /\ (forall y, In y post -> leb x y = true).
Proof.
  unfold sorted. induction pre as [|z pre IH]; cbn [app]; intros H; inversion H as [|? ? HS HF]; subst.
  - rewrite Forall_forall in HF. split; [intros y []|auto].
  - destruct (IH HS) as [I1 I2]. split; [|assumption]. intros y [<-|Hy]; [|auto].
    rewrite Forall_forall in HF. apply HF. apply in_or_app. right. now left.
Qed.

Lemma filter_map_comm {A B} (p : B -> bool) (g : A -> B) l : filter p (map g l) = map g (filter (fun x => p (g x)) l).
Proof. induction l as [|x l IH]; simpl; [reflexivity|]. destruct (p (g x)); simpl; now rewrite IH. Qed.

Lemma events_risk reps ends pre t post : events reps ends = pre ++ (t, true) :: post ->
  nC post = length (filter (fun e => Rleb t e) ends).
Proof.
  intros E.
  assert (sorted event_leb (events reps ends)) as HS.
  { apply isort_sorted; [apply event_total|apply event_trans]. }
  rewrite E in HS. apply sorted_app_inv in HS as [H1 H2].
  rewrite (Permutation_length (filter_perm (fun e => Rleb t e) _ _ (events_C reps ends))).
  rewrite filter_map_comm, map_length, E, filter_app. cbn [filter snd negb]. rewrite filter_app, app_length.
  rewrite (filter_none (fun x => Rleb t (fst x)) (filter _ pre)).
  2:{ intros [s c] Hin. apply filter_In in Hin as [Hin Hc]. cbn in Hc. apply negb_true_iff in Hc. subst c.
      apply H1 in Hin. unfold event_leb in Hin. cbn in *. apply Rleb_false.
      destruct (Rlt_dec s t); [assumption|]. destruct (Rlt_dec t s); discriminate. }
  rewrite (filter_all (fun x => Rleb t (fst x)) (filter _ post)).
  2:{ intros [s c] Hin. apply filter_In in Hin as [Hin Hc]. apply H2 in Hin. unfold event_leb in Hin. cbn in *.
      apply Rleb_true. destruct (Rlt_dec t s); [lra|]. destruct (Rlt_dec s t); [discriminate|lra]. }
  reflexivity.
Qed.

Lemma events_times_sorted reps ends : StronglySorted Rle (map fst (filter snd (events reps ends))).
Proof.
  assert (sorted event_leb (events reps ends)) as HS.
  { apply isort_sorted; [apply event_total|apply event_trans]. }
  induction HS as [|[t c] l HS IH HF]; cbn [filter map]; [constructor|].
  destruct c; cbn [snd map fst]; [|assumption]. constructor; [assumption|].
  rewrite Forall_map, Forall_forall. intros [s d] Hin. apply filter_In in Hin as [Hin _].
  rewrite Forall_forall in HF. specialize (HF _ Hin). unfold event_leb in HF. cbn in *.
  destruct (Rlt_dec t s); [lra|]. destruct (Rlt_dec s t); [discriminate|lra].
Qed.

Lemma cumsum_nth l : forall a k, (k < length l)%nat -> nth k (cumsum a l) 0 = a + rsum (firstn (S k) l).
Proof.
  induction l as [|x l IH]; intros a k Hk; [simpl in Hk; lia|]. destruct k as [|k]; cbn [cumsum nth].
  - simpl. ring.
  - rewrite IH by (simpl in Hk; lia). cbn [firstn]. rewrite !rsum_cons. destruct l; simpl; ring.
Qed.

Lemma cumsum_incr l : forall a, Forall (fun x => 0 < x) l ->
  StronglySorted Rlt (cumsum a l) /\ Forall (fun y => a < y) (cumsum a l).
Proof.
  induction l as [|x l IH]; intros a HF; [split; constructor|]. inversion HF as [|? ? Hx HF']; subst.
  cbn [cumsum]. destruct (IH (a + x) HF') as [S F]. split; [now constructor|].
  constructor; [lra|]. eapply Forall_impl; [|exact F]. simpl; intros; lra.
Qed.

Lemma cumsum_nonneg l : forall a, 0 <= a -> Forall (fun x => 0 <= x) l -> Forall (fun y => 0 <= y) (cumsum a l).
Proof. induction l as [|x l IH]; intros a Ha HF; constructor; inversion HF; subst; [lra|]. apply IH; [lra|assumption]. Qed.

Lemma var_term_nonneg r : (0 < r)%nat -> 0 <= var_term r.
Proof.
  intros H. unfold var_term. assert (1 <= INR r) by (apply (le_INR 1); lia).
  apply Rmult_le_pos; [apply pow2_ge_0|].
  assert (0 <= (1 - 1 / INR r) ^ 2) by apply pow2_ge_0.
  assert (0 <= (0 - 1 / INR r) ^ 2) by apply pow2_ge_0. nra.
Qed.

Lemma combine_map_fst_snd {A B} (l : list (A * B)) : combine (map fst l) (map snd l) = l.
Proof. induction l as [|[a b] l IH]; simpl; [reflexivity|]. now rewrite IH. Qed.

(** * Putting it together *)
Lemma mcf_structure data CI : Forall (fun s => s <> []) data ->
  forall res data', mcf_nonparametric data CI = (Ok res, data') ->
  let times := mcf_time res in
  let risk t := systems_observed data t in
  Permutation (times ++ map rmax data) (concat data) /\ StronglySorted Rle times /\
  (forall t, In t times -> (0 < risk t)%nat) /\ times <> [] /\ 0 <= CI <= 1 /\
  mcf_MCF res = cumsum 0 (map (fun t => 1 / INR (risk t)) times) /\
  mcf_var res = cumsum 0 (map (fun t => var_term (risk t)) times) /\
  let Z := - norm_ppf (1 - CI) in
  mcf_lower res = map (fun mv => fst mv / exp (Z * sqrt (snd mv) / fst mv)) (combine (mcf_MCF res) (mcf_var res)) /\
  mcf_upper res = map (fun mv => fst mv * exp (Z * sqrt (snd mv) / fst mv)) (combine (mcf_MCF res) (mcf_var res)).
Proof.
  intros HF res data' H. unfold mcf_nonparametric in H.
  destruct (collect data) as [[reps ends] data0] eqn:EC.
  destruct (collect_spec _ _ _ _ HF EC) as (Eends & P & _ & Hle).
  destruct (Rltb CI 0) eqn:E1; [injection H; discriminate|]. destruct (Rltb 1 CI) eqn:E2; [injection H; discriminate|].
  cbn [orb] in H. apply Rltb_false in E1, E2.
  destruct ends as [|e0 ends0] eqn:Ee; [injection H; discriminate|].
  destruct reps as [|r0 reps0] eqn:Er; [injection H; discriminate|].
  rewrite <- Ee, <- Er in *.
  destruct (Rltb (rmax ends) (rmax reps)); [injection H; discriminate|].
  set (evs := events reps ends) in *.
  assert (forall pre t post, evs = pre ++ (t, true) :: post -> nC post = systems_observed data t) as Hrisk.
  { intros pre t post E. unfold systems_observed. rewrite <- Eends. exact (events_risk reps ends pre t post E). }
  assert (forall t, In t reps -> (0 < systems_observed data t)%nat) as Hpos.
  { intros t Ht. destruct (Hle t Ht) as (e & He & Hte). unfold systems_observed. rewrite <- Eends.
    assert (In e (filter (fun e => Rleb t e) ends)) as Hin by (apply filter_In; split; [assumption|now apply Rleb_true]).
    destruct (filter _ ends); [destruct Hin|simpl; lia]. }
  assert (length ends = nC evs) as HnC.
  { rewrite (Permutation_length (events_C reps ends)), map_length. reflexivity. }
  assert (forall pre t post, evs = pre ++ (t, true) :: post -> (0 < nC post)%nat) as Hpos2.
  { intros pre t post E. rewrite (Hrisk pre t post E). apply Hpos.
    apply (Permutation_in _ (Permutation_sym (events_F reps ends))). fold evs. rewrite E.
    rewrite filter_app, map_app. apply in_or_app. right. now left. }
  rewrite (mcf_loop_simple evs 0 (length ends) 0 [] None) in H; [|split; [reflexivity|left; auto]|assumption|assumption].
  cbn [bind app] in H.
  destruct (drop_ends_simple evs (systems_observed data) (length ends) 0 0 None HnC (conj eq_refl eq_refl) Hrisk) as (T1 & T2 & T3).
  set (rows := drop_ends evs (mcf_simple evs (length ends) None)) in *.
  injection H as <- _. cbn [mcf_time mcf_MCF mcf_var mcf_lower mcf_upper].
  rewrite T1.
  split; [|split; [|split; [|split; [|split; [|split; [|split; [|split]]]]]]].
  - rewrite <- P, <- Eends. apply Permutation_app_tail. symmetry. apply events_F.
  - apply events_times_sorted.
  - intros t Ht. apply Hpos. apply (Permutation_in _ (Permutation_sym (events_F reps ends))). exact Ht.
  - intros E. pose proof (events_F reps ends) as PF. fold evs in PF. rewrite E in PF. symmetry in PF.
    apply Permutation_nil in PF. rewrite PF in Er. discriminate.
  - lra.
  - exact T2.
  - exact T3.
  - rewrite <- (map_map snd fst rows), <- (map_map snd snd rows), combine_map_fst_snd, map_map. reflexivity.
  - rewrite <- (map_map snd fst rows), <- (map_map snd snd rows), combine_map_fst_snd, map_map. reflexivity.
Qed.

Lemma mcf_C19 data CI : Forall (fun s => s <> []) data ->
  forall res data', mcf_nonparametric data CI = (Ok res, data') ->
  Permutation (mcf_time res ++ map rmax data) (concat data) /\
  StronglySorted Rle (mcf_time res) /\
  length (mcf_MCF res) = length (mcf_time res) /\
  forall k, (k < length (mcf_time res))%nat ->
    nth k (mcf_MCF res) 0 =
    rsum (map (fun t => 1 / INR (systems_observed data t)) (firstn (S k) (mcf_time res))).
Proof.
  intros HF res data' H.
  destruct (mcf_structure data CI HF res data' H) as (P & HS & _ & _ & _ & EM & _).
  split; [exact P|]. split; [exact HS|]. rewrite EM. rewrite cumsum_length, map_length. split; [reflexivity|].
  intros k Hk. rewrite cumsum_nth by now rewrite map_length. rewrite Rplus_0_l, firstn_map. reflexivity.
Qed.

Lemma mcf_C20 data CI : Forall (fun s => s <> []) data ->
  forall res data', mcf_nonparametric data CI = (Ok res, data') ->
  StronglySorted Rlt (mcf_MCF res) /\
  (exists t, hd_error (mcf_time res) = Some t /\ (0 < systems_observed data t)%nat /\
     hd_error (mcf_MCF res) = Some (1 / INR (systems_observed data t))) /\
  (1 / 2 <= CI < 1 ->
   length (mcf_lower res) = length (mcf_MCF res) /\ length (mcf_upper res) = length (mcf_MCF res) /\
   forall k, (k < length (mcf_MCF res))%nat ->
     0 < nth k (mcf_lower res) 0 <= nth k (mcf_MCF res) 0 /\
     nth k (mcf_MCF res) 0 <= nth k (mcf_upper res) 0).
Proof.
  intros HF res data' H.
  destruct (mcf_structure data CI HF res data' H) as (P & HS & Hpos & Hne & HCI & EM & EV & EL & EU).
  assert (Forall (fun x => 0 < x) (map (fun t => 1 / INR (systems_observed data t)) (mcf_time res))) as Hterm.
  { rewrite Forall_map, Forall_forall. intros t Ht. apply Rdiv_lt_0_compat; [lra|]. apply lt_0_INR. auto. }
  destruct (cumsum_incr _ 0 Hterm) as [SI FI]. rewrite <- EM in SI, FI.
  split; [exact SI|]. split.
  - destruct (mcf_time res) as [|t ts] eqn:ET; [congruence|]. exists t. split; [reflexivity|].
    split; [apply Hpos; now left|]. rewrite EM. cbn. now rewrite Rplus_0_l.
  - intros HC.
    assert (length (mcf_var res) = length (mcf_MCF res)) as HLV.
    { rewrite EV, EM, !cumsum_length, !map_length. reflexivity. }
    assert (Forall (fun y => 0 <= y) (mcf_var res)) as HV.
    { rewrite EV. apply cumsum_nonneg; [lra|]. rewrite Forall_map, Forall_forall. intros t Ht. apply var_term_nonneg; auto. }
    assert (0 <= - norm_ppf (1 - CI)) as HZ.
    { destruct (Req_EM_T CI (1 / 2)) as [->|N].
      - replace (1 - 1 / 2) with (1 / 2) by lra. rewrite norm_ppf_half. lra.
      - pose proof (norm_ppf_neg (1 - CI) ltac:(lra)). lra. }
    set (Z := - norm_ppf (1 - CI)) in *.
    assert (length (combine (mcf_MCF res) (mcf_var res)) = length (mcf_MCF res)) as HLC.
    { rewrite combine_length. lia. }
    split; [rewrite EL, map_length; exact HLC|]. split; [rewrite EU, map_length; exact HLC|].
    intros k Hk.
    set (f := fun mv : R * R => fst mv / exp (Z * sqrt (snd mv) / fst mv)) in *.
    set (g := fun mv : R * R => fst mv * exp (Z * sqrt (snd mv) / fst mv)) in *.
    rewrite EL, EU.
    rewrite (nth_indep _ 0 (f (0, 0))) by (rewrite map_length; lia).
    rewrite (nth_indep (map g _) 0 (g (0, 0))) by (rewrite map_length; lia).
    rewrite !map_nth, combine_nth by auto. unfold f, g. cbn [fst snd].
    set (m := nth k (mcf_MCF res) 0). set (v := nth k (mcf_var res) 0).
    assert (0 < m) as Hm. { rewrite Forall_forall in FI. apply FI. now apply nth_In. }
    assert (0 <= Z * sqrt v / m) as Hx.
    { apply Rmult_le_pos; [apply Rmult_le_pos; [assumption|apply sqrt_pos]|left; now apply Rinv_0_lt_compat]. }
    assert (1 <= exp (Z * sqrt v / m)) as He. { pose proof (exp_ge_1_plus (Z * sqrt v / m)). lra. }
    split; [split|].
    + apply Rdiv_lt_0_compat; [assumption|lra].
    + apply Rmult_le_reg_r with (exp (Z * sqrt v / m)); [lra|]. unfold Rdiv at 1.
      rewrite Rmult_assoc, Rinv_l by lra. nra.
    + nra.
Qed.

Lemma mcf_C21 data CI : let data' := snd (mcf_nonparametric data CI) in
  Forall (fun s => s <> []) data ->
  data' = map (isort Rleb) data /\ (Forall (StronglySorted Rle) data -> data' = data).
Proof.
  intros data' HF.
  assert (data' = map (isort Rleb) data) as E.
  { unfold data', mcf_nonparametric. destruct (collect data) as [[reps ends] data0] eqn:EC.
    now destruct (collect_spec _ _ _ _ HF EC) as (_ & _ & -> & _). }
  split; [exact E|]. intros HS. rewrite E. clear -HS. induction HS as [|s l Hs HS IH]; [reflexivity|].
  cbn [map]. rewrite IH. f_equal. apply isort_id; try apply Rleb_order.
  unfold sorted. clear -Hs. induction Hs as [|x l Hs IH Hx]; constructor; auto.
  eapply Forall_impl; [|exact Hx]. intros y. apply Rleb_true.
Qed.

Lemma rmax_le l m : l <> [] -> (forall x, In x l -> exists y, In y m /\ x <= y) -> rmax l <= rmax m.
Proof.
  intros Hl H. destruct (H _ (rmax_in l Hl)) as (y & Hy & Hle). pose proof (rmax_ge m y Hy). lra.
Qed.

Lemma mcf_succeeds data CI : Forall (fun s => s <> []) data ->
  (exists s, In s data /\ (2 <= length s)%nat) -> 0 <= CI <= 1 ->
  exists res data', mcf_nonparametric data CI = (Ok res, data').
Proof.
  intros HF (s & Hs & Hs2) HCI. unfold mcf_nonparametric.
  destruct (collect data) as [[reps ends] data0] eqn:EC.
  destruct (collect_spec _ _ _ _ HF EC) as (Eends & P & _ & Hle).
  destruct (Rltb CI 0) eqn:E1; [apply Rltb_true in E1; lra|].
  destruct (Rltb 1 CI) eqn:E2; [apply Rltb_true in E2; lra|]. cbn [orb].
  assert (length (concat data) > length data)%nat as Hgt.
  { clear -HF Hs Hs2. change (length data < length (concat data))%nat. revert Hs. induction HF as [|u data Hu HF IH]; intros Hs; [destruct Hs|].
    cbn [concat]. rewrite app_length. cbn [length].
    assert (length data <= length (concat data))%nat as Hge.
    { clear -HF. induction HF as [|u data Hu HF IH]; simpl; [lia|]. rewrite app_length. destruct u; [congruence|simpl; lia]. }
    destruct Hs as [->|Hs]; [lia|]. specialize (IH Hs). destruct u; [congruence|simpl; lia]. }
  pose proof (Permutation_length P) as PL. rewrite app_length, Eends, map_length in PL.
  destruct ends as [|e0 ends0] eqn:Ee. { destruct data; [destruct Hs|discriminate]. }
  destruct reps as [|r0 reps0] eqn:Er. { simpl in PL. lia. }
  rewrite <- Ee, <- Er in *.
  destruct (Rltb (rmax ends) (rmax reps)) eqn:E3.
  { apply Rltb_true in E3. assert (rmax reps <= rmax ends); [|lra]. apply rmax_le; [now rewrite Er|auto]. }
  set (evs := events reps ends) in *.
  assert (length ends = nC evs) as HnC.
  { rewrite (Permutation_length (events_C reps ends)), map_length. reflexivity. }
  rewrite (mcf_loop_simple evs 0 (length ends) 0 [] None); [|split; [reflexivity|left; auto]|assumption|].
  - cbn [bind]. eauto.
  - intros pre t post E. rewrite (events_risk reps ends pre t post E).
    assert (In t reps) as Ht.
    { apply (Permutation_in _ (Permutation_sym (events_F reps ends))). fold evs. rewrite E.
      rewrite filter_app, map_app. apply in_or_app. right. now left. }
    destruct (Hle t Ht) as (e & He & Hte).
    assert (In e (filter (fun e => Rleb t e) ends)) as Hin by (apply filter_In; split; [assumption|now apply Rleb_true]).
    destruct (filter _ ends); [destruct Hin|simpl; lia].
Qed.
