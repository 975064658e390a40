(** Proofs about the accelerated life test fitters: grouping by stress and input checking. *)
From Coquelicot Require Import Coquelicot.
From Coq Require Import String.
From Coq Require Import List Arith Reals Lra Lia Bool ZArith Sorting.Sorted Permutation.
From Verif Require Import Base RealFacts RList ConvertModel RepairModel RepairProofs RepairProofs2 DistModel CombModel RegModel RegProofs FitModel FitSpec SelModel SelProofs CIModel CISpec OtherModel OtherSpec ALTModel ALTSpec.
Import ListNotations.
Open Scope R_scope.

Section Groups.
  Context {K : Type} (kle : K -> K -> bool) (kdec : forall a b : K, {a = b} + {a <> b}).
  Hypothesis Hord : total_order kle.

  Lemma group_values_at k ks : forall vs, group_values kdec k ks vs = at_stress kdec k ks vs.
  Proof.
    induction ks as [|x ks IH]; intros vs; [reflexivity|]. destruct vs as [|v vs]; [reflexivity|]. unfold group_values in *. cbn [combine filter at_stress fst].
    destruct (kdec x k); cbn [map snd]; now rewrite IH.
  Qed.
  Lemma group_keys_In ks k : In k (group_keys kle kdec ks) <-> In k ks.
  Proof. unfold group_keys. split; intros H; [apply (Permutation_in _ (Permutation_sym (isort_perm kle _))) in H; now apply nodup_In in H|apply (Permutation_in _ (isort_perm kle _)); now apply nodup_In]. Qed.
  Lemma group_keys_NoDup ks : NoDup (group_keys kle kdec ks).
  Proof. unfold group_keys. apply (Permutation_NoDup (isort_perm kle _)), NoDup_nodup. Qed.
  Lemma group_keys_sorted ks : sorted kle (group_keys kle kdec ks).
  Proof. apply isort_sorted; apply Hord. Qed.
  Lemma at_stress_out k ks : ~ In k ks -> forall vs, at_stress kdec k ks vs = [].
  Proof.
    induction ks as [|x ks IH]; intros N vs; [reflexivity|]. destruct vs as [|v vs]; [reflexivity|]. cbn [at_stress]. destruct (kdec x k) as [->|]; [exfalso; apply N; now left|].
    apply IH. intros H. apply N. now right.
  Qed.

  Lemma add_empty_spec (val : K -> list R) ckeys fkeys : forall pre crest,
    sorted kle fkeys -> NoDup fkeys -> sorted kle crest -> NoDup crest -> incl crest fkeys ->
    (forall k, In k fkeys -> (In k ckeys <-> In k crest)) -> (forall k, ~ In k ckeys -> val k = []) ->
    add_empty kdec (length pre) fkeys ckeys (pre ++ map val crest) = pre ++ map val fkeys.
  Proof.
    induction fkeys as [|k r IH]; intros pre crest HSf HNf HSc HNc HI HE HV; cbn [add_empty].
    - destruct crest as [|c crest]; [reflexivity|]. exfalso. exact (HI c (or_introl eq_refl)).
    - apply StronglySorted_inv in HSf. destruct HSf as [HSf HF]. apply NoDup_cons_iff in HNf. destruct HNf as [Nk HNf].
      replace (S (length pre)) with (length (pre ++ [val k])) by (rewrite app_length; cbn; lia).
      change (map val (k :: r)) with ([val k] ++ map val r). rewrite app_assoc.
      destruct (in_dec kdec k ckeys) as [Hk|Hk].
      + assert (In k crest) as Hc by (apply HE; [now left|exact Hk]).
        destruct crest as [|h c]; [destruct Hc|]. apply StronglySorted_inv in HSc. destruct HSc as [HSc HG]. apply NoDup_cons_iff in HNc. destruct HNc as [Nh HNc].
        assert (h = k) as ->.
        { destruct Hc as [->|Hc]; [reflexivity|]. destruct (HI h (or_introl eq_refl)) as [<-|Hh]; [reflexivity|].
          apply (to_antisym _ Hord); [rewrite Forall_forall in HG; now apply HG|rewrite Forall_forall in HF; now apply HF]. }
        change (map val (k :: c)) with ([val k] ++ map val c). rewrite app_assoc. apply IH; try assumption.
        * intros x Hx. destruct (HI x (or_intror Hx)) as [<-|]; [contradiction|assumption].
        * intros x Hx. rewrite HE by now right. cbn [In]. split; [intros [<-|]; [contradiction|assumption]|now right].
      + assert (~ In k crest) as Hc by (intros Hc; apply Hk, HE; [now left|exact Hc]).
        unfold list_insert. rewrite firstn_app, skipn_app, firstn_all, skipn_all, Nat.sub_diag. cbn [firstn skipn app]. rewrite app_nil_r.
        change (pre ++ [] :: map val crest) with (pre ++ [[]] ++ map val crest). rewrite app_assoc, <- (HV k Hk). apply IH; try assumption.
        * intros x Hx. destruct (HI x Hx) as [<-|]; [contradiction|assumption].
        * intros x Hx. apply HE. now right.
  Qed.

  Lemma stress_groups_spec strict fk f ck c keys fg cg : stress_groups kle kdec strict fk f ck c = Ok (keys, fg, cg) ->
    (strict = true \/ incl ck fk) ->
    keys = group_keys kle kdec fk /\ fg = map (fun k => at_stress kdec k fk f) keys /\
    cg = match c with [] => None | _ => Some (map (fun k => at_stress kdec k ck c) keys) end.
  Proof.
    unfold stress_groups. intros H HS. destruct c as [|t c].
    - injection H as <- <- <-. split; [reflexivity|]. split; [|reflexivity]. unfold groupby. apply map_ext. intros k. apply group_values_at.
    - destruct (strict && _) eqn:E; [discriminate|]. injection H as <- <- <-. split; [reflexivity|]. split.
      + unfold groupby. apply map_ext. intros k. apply group_values_at.
      + f_equal. unfold groupby. assert (incl (group_keys kle kdec ck) (group_keys kle kdec fk)) as HI.
        { intros k Hk. apply (proj2 (group_keys_In _ _)). destruct HS as [->|HS].
          - cbn [andb] in E. apply negb_false_iff in E. rewrite forallb_forall in E. specialize (E k Hk). destruct (in_dec _ _ _) as [Hin|]; [|discriminate]. exact (proj1 (group_keys_In _ _) Hin).
          - apply HS. exact (proj1 (group_keys_In _ _) Hk). }
        rewrite (map_ext _ (fun k => at_stress kdec k ck (t :: c))) by (intros k; apply group_values_at).
        apply (add_empty_spec (fun k => at_stress kdec k ck (t :: c)) (group_keys kle kdec ck) (group_keys kle kdec fk) [] (group_keys kle kdec ck));
          try apply group_keys_sorted; try apply group_keys_NoDup; try assumption; [tauto|].
        intros k Hk. apply at_stress_out. intros Hin. apply Hk. exact (proj2 (group_keys_In _ _) Hin).
  Qed.
  Lemma stress_groups_strict fk f ck c : c <> [] -> (exists r, stress_groups kle kdec true fk f ck c = Ok r) <-> incl ck fk.
  Proof.
    intros Hc. unfold stress_groups. destruct c as [|t c]; [congruence|]. cbn [andb].
    assert (forallb (fun k => if in_dec kdec k (group_keys kle kdec fk) then true else false) (group_keys kle kdec ck) = true <-> incl ck fk) as E.
    { rewrite forallb_forall. split.
      - intros H k Hk. apply (proj2 (group_keys_In _ _)) in Hk. specialize (H k Hk). destruct (in_dec _ _ _) as [Hin|]; [|discriminate]. exact (proj1 (group_keys_In _ _) Hin).
      - intros H k Hk. destruct (in_dec _ _ _) as [|N]; [reflexivity|]. exfalso. apply N, (proj2 (group_keys_In _ _)), H. exact (proj1 (group_keys_In _ _) Hk). }
    destruct (forallb _ _); cbn [negb].
    - split; [intros _; now apply E|eauto].
    - split; [intros [r H]; discriminate|]. intros H. apply E in H. discriminate.
  Qed.

  (** Every item is in one group. *)
  Lemma concat_add (g : K -> list R) k v keys : NoDup keys -> In k keys ->
    Permutation (concat (map (fun x => if kdec k x then v :: g x else g x) keys)) (v :: concat (map g keys)).
  Proof.
    induction keys as [|x keys IH]; intros HN HI; [destruct HI|]. apply NoDup_cons_iff in HN. destruct HN as [Nx HN]. cbn [map concat]. destruct (kdec k x) as [->|Ne].
    - cbn [app]. constructor. apply Permutation_app_head. erewrite map_ext_in; [reflexivity|]. intros y Hy. cbv beta. destruct (kdec x y) as [->|]; [contradiction|reflexivity].
    - destruct HI as [->|HI]; [congruence|]. rewrite (IH HN HI). symmetry. apply Permutation_middle.
  Qed.
  Lemma groups_partition keys ks : forall vs, NoDup keys -> incl ks keys -> length ks = length vs ->
    Permutation (concat (map (fun k => at_stress kdec k ks vs) keys)) vs.
  Proof.
    induction ks as [|x ks IH]; intros vs HN HI HL; destruct vs as [|v vs]; try discriminate HL.
    - cbn [at_stress]. clear. induction keys; cbn; auto.
    - cbn [at_stress]. rewrite (concat_add (fun k => at_stress kdec k ks vs) x v keys HN (HI x (or_introl eq_refl))). constructor. apply IH; [exact HN| |now injection HL].
      intros y Hy. apply HI. now right.
  Qed.

  (** The unique failures counted group by group are the different (stress, failure) pairs. *)
  Lemma pair_dec : forall a b : K * R, {a = b} + {a <> b}.
  Proof. intros [a x] [b y]. destruct (kdec a b), (Req_EM_T x y); [left; congruence|right; congruence..]. Qed.
  Definition has_key (k : K) (p : K * R) : bool := if kdec (fst p) k then true else false.
  Lemma NoDup_incl_length_eq {A} (l m : list A) : NoDup l -> NoDup m -> incl l m -> incl m l -> length l = length m.
  Proof. intros. apply Nat.le_antisymm; now apply NoDup_incl_length. Qed.
  Lemma unique_in_group k ks vs : unique_count (at_stress kdec k ks vs) = length (filter (has_key k) (nodup pair_dec (combine ks vs))).
  Proof.
    rewrite <- group_values_at. unfold unique_count. set (S := filter (has_key k) (nodup pair_dec (combine ks vs))).
    assert (NoDup S) as HS by (apply NoDup_filter, NoDup_nodup).
    assert (forall p, In p S <-> In p (combine ks vs) /\ fst p = k) as HI.
    { intros p. unfold S. rewrite filter_In, nodup_In. unfold has_key. destruct (kdec (fst p) k); intuition congruence. }
    rewrite <- (map_length snd S). apply NoDup_incl_length_eq.
    - apply NoDup_nodup.
    - clearbody S. assert (forall p, In p S -> fst p = k) as HF by (intros p Hp; now apply HI). clear HI. induction HS as [|[a v] S Hn HS IH]; [constructor|]. cbn [map]. constructor.
      + rewrite in_map_iff. intros ((b & w) & E & Hw). cbn [snd] in E. subst w. pose proof (HF (a, v) (or_introl eq_refl)). pose proof (HF (b, v) (or_intror Hw)). cbn [fst] in *. congruence.
      + apply IH. intros p Hp. apply HF. now right.
    - intros v Hv. apply nodup_In in Hv. unfold group_values in Hv. apply in_map_iff in Hv. destruct Hv as (p & <- & Hp). apply filter_In in Hp. destruct Hp as [Hp Ep]. apply in_map, HI. split; [exact Hp|].
      destruct (kdec (fst p) k); [assumption|discriminate].
    - intros v Hv. apply in_map_iff in Hv. destruct Hv as (p & <- & Hp). apply HI in Hp. destruct Hp as [Hp Ep]. apply nodup_In. unfold group_values. apply in_map, filter_In. split; [exact Hp|].
      destruct (kdec (fst p) k); [reflexivity|contradiction].
  Qed.
  Lemma sum_filters (l : list (K * R)) keys : NoDup keys -> (forall p, In p l -> In (fst p) keys) -> list_sum (map (fun k => length (filter (has_key k) l)) keys) = length l.
  Proof.
    intros HN. induction l as [|p l IH]; intros HI.
    - cbn [filter length]. clear. induction keys; cbn; auto.
    - cbn [length]. rewrite <- IH by (intros q Hq; apply HI; now right). specialize (HI p (or_introl eq_refl)). clear IH.
      transitivity (list_sum (map (fun k => if kdec (fst p) k then S (length (filter (has_key k) l)) else length (filter (has_key k) l)) keys)).
      { f_equal. apply map_ext. intros k. cbn [filter]. unfold has_key at 1. destruct (kdec (fst p) k); reflexivity. }
      induction keys as [|k keys IH]; [destruct HI|]. apply NoDup_cons_iff in HN. destruct HN as [Nk HN]. cbn [map list_sum fold_right]. fold (list_sum (map (fun k => length (filter (has_key k) l)) keys)).
      change (fold_right Nat.add 0%nat) with list_sum. destruct (kdec (fst p) k) as [E|Ne].
      + rewrite Nat.add_succ_l. do 2 f_equal. f_equal. apply map_ext_in. intros y Hy. destruct (kdec (fst p) y); [congruence|reflexivity].
      + destruct HI as [->|HI]; [congruence|]. rewrite IH by assumption. lia.
  Qed.
  Lemma unique_total keys ks vs : NoDup keys -> incl ks keys -> list_sum (map unique_count (map (fun k => at_stress kdec k ks vs) keys)) = length (nodup pair_dec (combine ks vs)).
  Proof.
    intros HN HI. rewrite map_map. rewrite (map_ext _ (fun k => length (filter (has_key k) (nodup pair_dec (combine ks vs))))) by (intros k; apply unique_in_group).
    apply sum_filters; [exact HN|]. intros [a v] Hp. apply nodup_In in Hp. apply HI. now apply in_combine_l in Hp.
  Qed.
  Lemma NoDup_app_l {A} (l m : list A) : NoDup (l ++ m) -> NoDup l.
  Proof. induction l as [|x l IH]; intros H; [constructor|]. cbn [app] in H. apply NoDup_cons_iff in H. destruct H as [N H]. constructor; [intros Hx; apply N, in_or_app; now left|now apply IH]. Qed.
  Lemma different_count n (l : list (K * R)) : (n <= length (nodup pair_dec l))%nat <-> exists m, NoDup m /\ incl m l /\ length m = n.
  Proof.
    split.
    - intros H. exists (firstn n (nodup pair_dec l)). split; [|split; [|now apply firstn_length_le]].
      + pose proof (NoDup_nodup pair_dec l) as HN. rewrite <- (firstn_skipn n (nodup pair_dec l)) in HN. now apply NoDup_app_l in HN.
      + intros x Hx. apply (nodup_In pair_dec). rewrite <- (firstn_skipn n). apply in_or_app. now left.
    - intros (m & HN & HI & <-). apply NoDup_incl_length; [exact HN|]. intros x Hx. now apply nodup_In, HI.
  Qed.
End Groups.

(** ** alt_check *)
Lemma two_values_count l : two_values l <-> (2 <= unique_count l)%nat.
Proof.
  split.
  - intros (x & y & Hx & Hy & Ne). apply (unique_ge l [x; y]).
    + constructor; [intros [E|[]]; congruence|]. constructor; [intros []|constructor].
    + intros z [<-|[<-|[]]]; assumption.
  - unfold unique_count. pose proof (NoDup_nodup Req_EM_T l) as HN. pose proof (fun x => proj1 (nodup_In Req_EM_T l x)) as HI. destruct (nodup Req_EM_T l) as [|x [|y r]]; cbn [length]; try lia.
    intros _. exists x, y. split; [apply HI; now left|]. split; [apply HI; right; now left|]. apply NoDup_cons_iff in HN. destruct HN as [N _]. intros ->. apply N. now left.
Qed.
Lemma str_in_In s l : str_in s l = true <-> In s l.
Proof.
  unfold str_in. rewrite existsb_exists. split.
  - intros (x & Hx & E). apply String.eqb_eq in E. now subst.
  - intros H. exists s. split; [exact H|apply String.eqb_refl].
Qed.
Lemma check_optimizer_ok o : (exists r, check_optimizer o = Ok r) <-> known_optimizer o.
Proof.
  unfold check_optimizer, known_optimizer. destruct o as [s|]; [|split; eauto].
  destruct (String.eqb_spec (upper s) "TNC") as [->|N1]; [split; [intros _; cbn; tauto|eauto]|].
  destruct (String.eqb_spec (upper s) "POWELL") as [->|N2]; [split; [intros _; cbn; tauto|eauto]|].
  destruct (str_in _ ["L-BFGS-B"; "LBFGSB"]%string) eqn:E1; [apply str_in_In in E1; split; [intros _; cbn in *; tauto|eauto]|].
  destruct (str_in _ ["NELDER-MEAD"; "NELDERMEAD"; "NM"]%string) eqn:E2; [apply str_in_In in E2; split; [intros _; cbn in *; tauto|eauto]|].
  destruct (str_in _ ["ALL"; "BEST"]%string) eqn:E3; [apply str_in_In in E3; split; [intros _; cbn in *; tauto|eauto]|].
  split; [intros [r H]; discriminate|]. intros H. exfalso.
  assert (forall l, str_in (upper s) l = false -> ~ In (upper s) l) as K by (intros l El HI; apply str_in_In in HI; congruence).
  apply K in E1, E2, E3. cbn in *. intuition congruence.
Qed.
Lemma check_optimizer_err o e : check_optimizer o = Err e -> e = ValueError.
Proof. unfold check_optimizer. destruct o; [|discriminate]. repeat match goal with |- context [if ?b then _ else _] => destruct b end; congruence. Qed.
Lemma check_use_ok dual u : (exists r, check_use dual u = Ok r) <-> use_fits dual u.
Proof.
  unfold check_use, use_fits. destruct u as [[x|l]|]; destruct dual; try (split; eauto; fail); try (split; [intros [r H]; discriminate|intros H; discriminate]).
  - destruct l as [|x [|y [|z l]]]; split; try (intros [r H]; discriminate); try (intros [_ H]; discriminate); eauto.
  - destruct l as [|x [|y [|z l]]]; (split; [intros [r H]; discriminate|intros [H _]; discriminate]).
Qed.
Lemma check_use_err dual u e : check_use dual u = Err e -> e = ValueError.
Proof. unfold check_use. destruct u as [[x|[|x [|y [|z l]]]]|]; destruct dual; congruence. Qed.

Lemma check_stresses_ok dual a s1 s2 rc c1 c2 : check_stresses dual a = Ok (s1, s2, (rc, c1, c2)) <-> used_stresses dual a s1 s2 rc c1 c2.
Proof.
  unfold check_stresses, used_stresses. destruct (g_stress_1 a) as [x1|], (g_stress_2 a) as [x2|], (g_censored a) as [l|], (g_censored_1 a) as [y1|], (g_censored_2 a) as [y2|], dual; cbn [bind fst snd];
    (split; [intros H; try discriminate; injection H as; subst; repeat split; reflexivity|intros H; decompose [and] H; subst; try discriminate; repeat match goal with H : Some _ = Some _ |- _ => injection H as H; subst end; reflexivity]).
Qed.
Lemma check_stresses_err dual a e : check_stresses dual a = Err e -> e = ValueError.
Proof.
  unfold check_stresses. destruct (g_stress_1 a) as [x1|], (g_stress_2 a) as [x2|], (g_censored a) as [l|], (g_censored_1 a) as [y1|], (g_censored_2 a) as [y2|], dual; cbn [bind fst snd]; congruence.
Qed.

(** The groups for one or two stresses. *)
Definition all_groups (kle : R * R -> R * R -> bool) (dual : bool) (s1 s2 failures c1 c2 rc : list R) : result (list (R * R) * list (list R) * option (list (list R))) :=
  if dual then stress_groups kle Rpair_dec true (combine s1 s2) failures (combine c1 c2) rc
  else let! g := stress_groups Rleb Req_EM_T false s1 failures c1 rc in Ok (map (fun x => (x, 0)) (fst (fst g)), snd (fst g), snd g).
Definition checks (dual : bool) (a : alt_args) (s1 s2 rc c1 c2 : list R) : Prop :=
  length s1 = length (g_failures a) /\ length c1 = length rc /\ (dual = true -> length s2 = length (g_failures a) /\ length c2 = length rc) /\
  (forall t, In t (g_failures a) \/ In t rc -> 0 < t) /\ g_failures a ++ rc <> [] /\ 0 < g_CI a < 1 /\ two_values s1 /\ (dual = true -> two_values s2).

Lemma alt_check_form kle model a : let dual := is_dual model a in
  (exists e, alt_check kle model a = Err e /\ e = ValueError) \/
  (exists s1 s2 rc c1 c2 keys fg cg o u, used_stresses dual a s1 s2 rc c1 c2 /\ checks dual a s1 s2 rc c1 c2 /\
    check_optimizer (g_optimizer a) = Ok o /\ check_use dual (g_use a) = Ok u /\
    all_groups kle dual s1 s2 (g_failures a) c1 c2 rc = Ok (keys, fg, cg) /\
    (min_failures_reqd dual <= list_sum (map unique_count fg))%nat /\
    alt_check kle model a = Ok {| k_failures := g_failures a; k_stress_1 := s1; k_stress_2 := s2; k_censored := rc; k_censored_1 := c1; k_censored_2 := c2;
              k_CI := g_CI a; k_optimizer := o; k_use := u; k_failure_groups := rev fg; k_censored_groups := option_map (@rev _) cg; k_stresses := rev keys |}).
Proof.
  cbv zeta. set (dual := is_dual model a). unfold alt_check. fold dual. clearbody dual. destruct (check_stresses dual a) as [[[s1 s2] [[rc c1] c2]]|e] eqn:ES; cbn [bind].
  2: { left. exists e. split; [reflexivity|]. eapply check_stresses_err; exact ES. }
  apply check_stresses_ok in ES. destruct (negb _ || _) eqn:E1; [left; eauto|]. apply orb_false_iff in E1. destruct E1 as [E1a E1b]. apply negb_false_iff, Nat.eqb_eq in E1a.
  destruct (negb _ || _) eqn:E2; [left; eauto|]. apply orb_false_iff in E2. destruct E2 as [E2a E2b]. apply negb_false_iff, Nat.eqb_eq in E2a.
  destruct ((_ =? 0)%nat || _) eqn:E3; [left; eauto|]. apply orb_false_iff in E3. destruct E3 as [E3a E3b]. apply Nat.eqb_neq in E3a.
  destruct (Rleb (g_CI a) 0 || _) eqn:E4; [left; eauto|]. apply orb_false_iff in E4. destruct E4 as [E4a E4b].
  destruct (check_optimizer _) as [o|e] eqn:EO; cbn [bind]; [|left; exists e; split; [reflexivity|eapply check_optimizer_err; exact EO]].
  destruct (Nat.ltb_spec (unique_count s1) 2) as [L1|L1]; [left; eauto|].
  destruct (dual && (unique_count s2 <? 2)%nat) eqn:E5; [left; eauto|].
  assert (checks dual a s1 s2 rc c1 c2) as HC.
  { unfold checks. split; [now symmetry|]. split; [now symmetry|]. split.
    - intros Hd. rewrite Hd in *. cbn [andb] in *. apply negb_false_iff, Nat.eqb_eq in E1b, E2b. split; now symmetry.
    - split.
      + intros t Ht. rewrite existsb_false_iff in E3b. specialize (E3b t). assert (In t (g_failures a ++ rc)) as Hin by now apply in_or_app. specialize (E3b Hin).
        unfold Rleb in E3b. destruct (Rle_dec t 0); [discriminate|lra].
      + split; [intros E; rewrite E in E3a; now apply E3a|]. split; [unfold Rleb in *; destruct (Rle_dec (g_CI a) 0), (Rle_dec 1 (g_CI a)); try discriminate; lra|].
        split; [now apply two_values_count|]. intros Hd. rewrite Hd in E5. cbn [andb] in E5. apply Nat.ltb_ge in E5. now apply two_values_count. }
  fold (all_groups kle dual s1 s2 (g_failures a) c1 c2 rc). destruct (all_groups kle dual s1 s2 (g_failures a) c1 c2 rc) as [[[keys fg] cg]|e] eqn:EG; cbn [bind].
  2: { left. exists e. split; [reflexivity|]. unfold all_groups, stress_groups in EG. destruct dual, rc as [|t rc]; cbn [bind andb negb] in EG; try discriminate. destruct (forallb _ _); cbn [negb] in EG; congruence. }
  destruct (Nat.ltb_spec (list_sum (map unique_count fg)) (min_failures_reqd dual)) as [L2|L2]; [left; eauto|].
  destruct (check_use dual (g_use a)) as [u|e] eqn:EU; cbn [bind]; [|left; exists e; split; [reflexivity|eapply check_use_err; exact EU]].
  right. exists s1, s2, rc, c1, c2, keys, fg, cg, o, u. repeat (split; [assumption || reflexivity|]). reflexivity.
Qed.

Lemma at_stress_single x s : forall f, at_stress Rpair_dec (x, 0) (map (fun x => (x, 0)) s) f = at_stress Req_EM_T x s f.
Proof.
  induction s as [|y s IH]; intros f; [reflexivity|]. destruct f as [|t f]; [reflexivity|]. cbn [map at_stress]. rewrite IH.
  destruct (Rpair_dec (y, 0) (x, 0)) as [E|N], (Req_EM_T y x); try reflexivity; exfalso; congruence.
Qed.
Lemma Rpair_inj (x y : R) : (x, 0) = (y, 0) -> x = y.
Proof. congruence. Qed.
Lemma all_groups_spec kle dual s1 s2 f c1 c2 rc keys fg cg : total_order kle -> all_groups kle dual s1 s2 f c1 c2 rc = Ok (keys, fg, cg) ->
  NoDup keys /\ (forall s, In s keys <-> In s (pairs_of dual s1 s2)) /\
  fg = map (fun s => at_stress Rpair_dec s (pairs_of dual s1 s2) f) keys /\
  (dual = false -> StronglySorted Rlt (map fst keys)) /\
  (dual = true \/ incl c1 s1 -> cg = match rc with [] => None | _ => Some (map (fun s => at_stress Rpair_dec s (pairs_of dual c1 c2) rc) keys) end) /\
  (dual = true -> rc <> [] -> incl (combine c1 c2) (combine s1 s2)).
Proof.
  intros Ho H. unfold all_groups in H. destruct dual.
  - unfold pairs_of. destruct (stress_groups_spec kle Rpair_dec Ho true _ _ _ _ _ _ _ H (or_introl eq_refl)) as (-> & -> & ->).
    split; [apply group_keys_NoDup|]. split; [intros s; apply group_keys_In|]. split; [reflexivity|]. split; [discriminate|]. split; [reflexivity|]. intros _ Hrc.
    apply (stress_groups_strict kle Rpair_dec (combine s1 s2) f (combine c1 c2) rc Hrc). eauto.
  - destruct (stress_groups Rleb Req_EM_T false s1 f c1 rc) as [[[k g] c]|] eqn:EG; [|discriminate]. cbn [bind fst snd] in H. injection H as <- <- <-.
    assert (k = group_keys Rleb Req_EM_T s1 /\ g = map (fun x => at_stress Req_EM_T x s1 f) k) as [-> ->].
    { unfold stress_groups in EG. cbn [andb] in EG. destruct rc; injection EG as <- <- _; (split; [reflexivity|unfold groupby; apply map_ext; intros x; apply group_values_at]). }
    split; [apply FinFun.Injective_map_NoDup; [intros x y; apply Rpair_inj|apply group_keys_NoDup]|]. split.
    { intros s. unfold pairs_of. rewrite !in_map_iff. split; intros (x & <- & Hx); exists x; (split; [reflexivity|]); now apply (group_keys_In Rleb Req_EM_T). }
    split; [rewrite map_map; apply map_ext; intros x; symmetry; apply at_stress_single|]. split.
    { intros _. rewrite map_map. cbn [fst]. rewrite map_id. unfold group_keys. apply isort_strict, NoDup_nodup. }
    split; [|discriminate]. intros [|HI]; [discriminate|]. destruct (stress_groups_spec Rleb Req_EM_T Rleb_order false _ _ _ _ _ _ _ EG (or_intror HI)) as (_ & _ & ->).
    destruct rc as [|t rc]; [reflexivity|]. f_equal. rewrite map_map. apply map_ext. intros x. symmetry. apply at_stress_single.
Qed.

Lemma checks_acceptable kle model a : total_order kle -> let dual := is_dual model a in
  (exists k, alt_check kle model a = Ok k) <-> acceptable dual a.
Proof.
  intros Ho dual. split.
  - intros [k H]. destruct (alt_check_form kle model a) as [(e & E & _)|(s1 & s2 & rc & c1 & c2 & keys & fg & cg & o & u & HU & HC & HO & Hu & HG & HM & _)]; [congruence|]. fold dual in HU, HC, HO, Hu, HG, HM.
    destruct HC as (L1 & L2 & L3 & P & _ & C & T1 & T2).
    exists s1, s2, rc, c1, c2. repeat (split; [assumption|]).
    split; [apply check_optimizer_ok; eauto|]. split; [apply check_use_ok; eauto|]. split; [exact T1|]. split; [exact T2|].
    destruct (all_groups_spec _ _ _ _ _ _ _ _ _ _ _ Ho HG) as (HN & HI & -> & _ & _ & HS). split.
    + rewrite unique_total in HM; [|exact HN|intros s; apply HI]. change (if dual then 4%nat else 3%nat) with (min_failures_reqd dual).
      now apply (proj1 (different_count Rpair_dec _ _)).
    + intros Hd. destruct rc as [|t rc]; [|apply HS; [exact Hd|discriminate]]. destruct c1; [intros x []|discriminate L2].
  - intros (s1 & s2 & rc & c1 & c2 & HU & L1 & L2 & L3 & P & C & KO & KU & T1 & T2 & D & HS).
    destruct (alt_check_form kle model a) as [(e & E & _)|(s1' & s2' & rc' & c1' & c2' & keys & fg & cg & o & u & _ & _ & _ & _ & _ & _ & E)]; [|eauto].
    exfalso. unfold alt_check in E. fold dual in E. assert (check_stresses dual a = Ok (s1, s2, (rc, c1, c2))) as ES by now apply check_stresses_ok.
    rewrite ES in E. cbn [bind] in E. rewrite L1, L2, !Nat.eqb_refl in E. cbn [negb orb] in E.
    assert (dual && negb (length (g_failures a) =? length s2)%nat = false) as E1 by (destruct dual; [rewrite (proj1 (L3 eq_refl)), Nat.eqb_refl|]; reflexivity).
    assert (dual && negb (length rc =? length c2)%nat = false) as E2 by (destruct dual; [rewrite (proj2 (L3 eq_refl)), Nat.eqb_refl|]; reflexivity).
    rewrite E1, E2 in E. clear E1 E2.
    assert (g_failures a <> []) as Hf by (destruct T1 as (x & _ & Hx & _); intros F; rewrite F in L1; destruct s1; [destruct Hx|discriminate L1]).
    assert ((length (g_failures a ++ rc) =? 0)%nat = false) as E1 by (destruct (g_failures a); [congruence|reflexivity]).
    assert (existsb (fun t => Rleb t 0) (g_failures a ++ rc) = false) as E2.
    { apply existsb_false_iff. intros t Ht. apply in_app_or, P in Ht. unfold Rleb. destruct (Rle_dec t 0); [lra|reflexivity]. }
    rewrite E1, E2 in E. clear E1 E2. cbn [orb] in E.
    assert (Rleb (g_CI a) 0 || Rleb 1 (g_CI a) = false) as E1 by (unfold Rleb; destruct (Rle_dec (g_CI a) 0), (Rle_dec 1 (g_CI a)); try lra; reflexivity).
    rewrite E1 in E. clear E1. apply check_optimizer_ok in KO. destruct KO as [o KO]. rewrite KO in E. cbn [bind] in E.
    apply two_values_count in T1. apply Nat.ltb_ge in T1. rewrite T1 in E.
    assert (dual && (unique_count s2 <? 2)%nat = false) as E1 by (destruct dual; [apply Nat.ltb_ge, two_values_count, T2; reflexivity|reflexivity]).
    rewrite E1 in E. clear E1. fold (all_groups kle dual s1 s2 (g_failures a) c1 c2 rc) in E.
    assert (exists g, all_groups kle dual s1 s2 (g_failures a) c1 c2 rc = Ok g) as [[[keys fg] cg] HG].
    { unfold all_groups. destruct dual.
      - destruct rc as [|t rc]; [eexists; reflexivity|]. apply stress_groups_strict; [discriminate|]. now apply HS.
      - unfold stress_groups. destruct rc; cbn [andb bind]; eauto. }
    rewrite HG in E. cbn [bind] in E.
    destruct (all_groups_spec _ _ _ _ _ _ _ _ _ _ _ Ho HG) as (HN & HI & -> & _ & _ & _).
    rewrite unique_total in E; [|exact HN|intros s; apply HI].
    apply (proj2 (different_count Rpair_dec _ _)) in D. change (if dual then 4%nat else 3%nat) with (min_failures_reqd dual) in D. apply Nat.ltb_ge in D. rewrite D in E.
    apply check_use_ok in KU. destruct KU as [u KU]. rewrite KU in E. cbn [bind] in E. discriminate.
Qed.
