From Coq Require Import List Arith ZArith Bool Lia Permutation Sorted String.
From Verif Require Import Base ConvertModel ConvertSpec.
Import ListNotations.
Local Open Scope list_scope.

Lemma code_eqb_spec a b : reflect (a = b) (code_eqb a b).
Proof.
  destruct a as [s|m], b as [t|n]; simpl; try (constructor; congruence).
  - destruct (String.eqb_spec s t); constructor; congruence.
  - destruct (Z.eqb_spec m n); constructor; congruence.
Qed.

Lemma code_mem_spec c l : reflect (In c l) (code_mem c l).
Proof.
  induction l as [|d r IH]; simpl; [now constructor|].
  destruct (code_eqb_spec c d) as [->|N]; simpl.
  - constructor. now left.
  - destruct IH; constructor; [now right|]. intros [->|H]; auto.
Qed.

Lemma opt_eqb_spec c o : reflect (Some c = o) (opt_eqb c o).
Proof.
  destruct o as [d|]; simpl; [|constructor; congruence].
  destruct (code_eqb_spec c d); constructor; congruence.
Qed.

Lemma default_disjoint c : In c default_fail -> In c default_cens -> False.
Proof.
  intros H1 H2. simpl in H1.
  repeat (destruct H1 as [<-|H1]; [simpl in H2; repeat (destruct H2 as [H2|H2]; [discriminate|]); auto|]).
  auto.
Qed.

Lemma upper_ascii_idem c : upper_ascii (upper_ascii c) = upper_ascii c.
Proof. destruct c as [[] [] [] [] [] [] [] []]; vm_compute; reflexivity. Qed.

Lemma upper_idem s : upper (upper s) = upper s.
Proof. induction s as [|c r IH]; simpl; [reflexivity|]. now rewrite upper_ascii_idem, IH. Qed.

Lemma code_upper_idem c : code_upper (code_upper c) = code_upper c.
Proof. destruct c; simpl; [now rewrite upper_idem|reflexivity]. Qed.

Lemma is_str_upper c : is_str (code_upper c) = is_str c.
Proof. now destruct c. Qed.

Lemma classify_means fc cc c b :
  classify (option_map code_upper fc) (option_map code_upper cc) (code_upper c) = Some b
  <-> means fc cc c b.
Proof.
  unfold classify, means, means_failure, means_censored.
  change documented_failure_codes with default_fail.
  change documented_censored_codes with default_cens.
  destruct (opt_eqb_spec (code_upper c) (option_map code_upper fc)) as [E1|E1].
  { destruct b; split; intro H; auto; try congruence. destruct H as [H _]. congruence. }
  destruct (opt_eqb_spec (code_upper c) (option_map code_upper cc)) as [E2|E2].
  { destruct b; split; intro H; auto; try congruence.
    destruct H as [H|[H _]]; congruence. }
  destruct (code_mem_spec (code_upper c) default_fail) as [E3|E3].
  { destruct b; split; intro H; auto; try congruence.
    destruct H as [_ [H|H]]; [congruence|]. exfalso. eauto using default_disjoint. }
  destruct (code_mem_spec (code_upper c) default_cens) as [E4|E4];
    destruct b; split; intro H; try congruence; auto.
  - destruct H as [H|[_ H]]; [congruence|contradiction].
  - destruct H as [H|[_ H]]; [congruence|contradiction].
  - destruct H as [_ [H|H]]; [congruence|contradiction].
Qed.

(** ** Unique codes *)
Lemma code_nodup_in c l : In c (code_nodup l) <-> In c l.
Proof.
  induction l as [|d r IH]; simpl; [tauto|].
  destruct (code_mem_spec d r) as [H|H].
  - rewrite IH. split; [auto|]. intros [<-|?]; auto.
  - simpl. rewrite IH. tauto.
Qed.

Lemma code_nodup_nodup l : NoDup (code_nodup l).
Proof.
  induction l as [|d r IH]; simpl; [constructor|].
  destruct (code_mem_spec d r) as [H|H]; [assumption|].
  constructor; [|assumption]. now rewrite code_nodup_in.
Qed.

Lemma n_unique_le2 C : (n_unique_codes (map code_upper C) <= 2)%nat <-> at_most_two_codes C.
Proof.
  unfold n_unique_codes, at_most_two_codes.
  set (l := np_coerce (map code_upper C)).
  split.
  - intros H. assert (forall c, In c l -> In c (code_nodup l)) as Hin by (intros; now apply code_nodup_in).
    destruct (code_nodup l) as [|a [|b [|? ?]]]; simpl in *; try lia.
    + exists (CNum 0), (CNum 0). intros c Hc. now apply Hin in Hc.
    + exists a, a. intros c Hc. apply Hin in Hc. intuition.
    + exists a, b. intros c Hc. apply Hin in Hc. intuition.
  - intros (a & b & H).
    assert (incl (code_nodup l) [a; b]) as Hi.
    { intros c Hc. apply (proj1 (code_nodup_in _ _)) in Hc. apply H in Hc. simpl. intuition. }
    apply (NoDup_incl_length (code_nodup_nodup l) Hi).
Qed.

Lemma map_repeat {A B} (g : A -> B) x n : map g (repeat x n) = repeat (g x) n.
Proof. induction n; simpl; congruence. Qed.

Lemma documented_fail : documented_failure_codes = default_fail.
Proof. reflexivity. Qed.
Lemma documented_cens : documented_censored_codes = default_cens.
Proof. reflexivity. Qed.

Section P.
  Context {T : Type} (leb : T -> T -> bool) (ord : total_order leb).

  Let total := to_total _ ord.
  Let trans := to_trans _ ord.
  Let antisym := to_antisym _ ord.

  Lemma leb_refl x : leb x x = true.
  Proof. destruct (total x x); auto. Qed.

  Lemma eqb_spec x y : reflect (x = y) (eqb leb x y).
  Proof.
    unfold eqb. destruct (leb x y) eqn:E1, (leb y x) eqn:E2; simpl; constructor.
    - now apply antisym.
    - intros ->. congruence.
    - intros ->. congruence.
    - intros ->. rewrite leb_refl in E1. discriminate.
  Qed.

  (** ** expand and copies *)
  Lemma expand_ok (xs : list T) ns :
    Forall (fun n => (0 <= n)%Z) ns -> expand xs ns = Ok (copies xs ns).
  Proof.
    revert ns. induction xs as [|x xs IH]; intros [|n ns] H; simpl; try reflexivity.
    inversion H; subst. unfold ones_times.
    replace (n <? 0)%Z with false by (symmetry; now apply Z.ltb_ge).
    simpl. now rewrite IH.
  Qed.

  Lemma expand_inv (xs : list T) ns l :
    List.length xs = List.length ns -> expand xs ns = Ok l ->
    Forall (fun n => (0 <= n)%Z) ns /\ l = copies xs ns.
  Proof.
    revert ns l. induction xs as [|x xs IH]; intros [|n ns] l HL H; simpl in *; try discriminate.
    - inversion H. auto.
    - unfold ones_times in H. destruct (Z.ltb_spec n 0); simpl in H; [discriminate|].
      destruct (expand xs ns) as [t|] eqn:E; simpl in H; [|discriminate].
      inversion H; subst. destruct (IH ns t) as [F ->]; [lia|assumption|].
      split; [constructor; auto|reflexivity].
  Qed.

  Lemma copies_map {A B} (g : A -> B) xs ns : map g (copies xs ns) = copies (map g xs) ns.
  Proof.
    revert ns. induction xs as [|x xs IH]; intros [|n ns]; simpl; try reflexivity.
    now rewrite map_app, map_repeat, IH.
  Qed.

  Lemma copies_app {A} (xs ys : list A) ns ms :
    List.length xs = List.length ns -> copies (xs ++ ys) (ns ++ ms) = copies xs ns ++ copies ys ms.
  Proof.
    revert ns. induction xs as [|x xs IH]; intros [|n ns] H; simpl in *; try discriminate; [reflexivity|].
    rewrite IH by lia. now rewrite app_assoc.
  Qed.

  Lemma copies_length {A} (xs : list A) ns :
    List.length xs = List.length ns -> Forall (fun n => (0 <= n)%Z) ns ->
    Z.of_nat (List.length (copies xs ns)) = fold_right Z.add 0%Z ns.
  Proof.
    revert ns. induction xs as [|x xs IH]; intros [|n ns] H F; simpl in *; try discriminate; [reflexivity|].
    inversion F; subst. rewrite app_length, repeat_length, Nat2Z.inj_add, IH by (auto; lia). lia.
  Qed.

  (** ** np.unique *)
  Lemma split_runs_length l :
    List.length (fst (split (runs leb l))) = List.length (snd (split (runs leb l))).
  Proof. now rewrite split_length_l, split_length_r. Qed.

  Lemma runs_pos l : Forall (fun p => (1 <= snd p)%Z) (runs leb l).
  Proof.
    induction l as [|x r IH]; simpl; [constructor|].
    destruct (runs leb r) as [|[y k] q]; [repeat constructor; simpl; lia|].
    inversion IH; subst. simpl in *.
    destruct (eqb leb x y); repeat constructor; simpl; auto; lia.
  Qed.

  Lemma split_cons {A B} (p : A * B) l :
    split (p :: l) = (fst p :: fst (split l), snd p :: snd (split l)).
  Proof. destruct p; simpl. now destruct (split l). Qed.

  Lemma fst_split_map {A B} (l : list (A * B)) : fst (split l) = map fst l.
  Proof. induction l as [|[a b] l IH]; simpl; [reflexivity|]. rewrite <- IH. now destruct (split l). Qed.
  Lemma snd_split_map {A B} (l : list (A * B)) : snd (split l) = map snd l.
  Proof. induction l as [|[a b] l IH]; simpl; [reflexivity|]. rewrite <- IH. now destruct (split l). Qed.

  Lemma copies_runs l : copies (map fst (runs leb l)) (map snd (runs leb l)) = l.
  Proof.
    induction l as [|x r IH]; simpl; [reflexivity|].
    pose proof (runs_pos r) as HP.
    destruct (runs leb r) as [|[y k] q]; simpl in IH; [now rewrite <- IH|].
    apply Forall_inv in HP. simpl in HP.
    destruct (eqb_spec x y) as [E|N]; simpl.
    - rewrite Z2Nat.inj_add by lia. rewrite Nat.add_comm. simpl. rewrite IH. congruence.
    - now rewrite IH.
  Qed.

  Lemma copies_split_runs l :
    copies (fst (split (runs leb l))) (snd (split (runs leb l))) = l.
  Proof. rewrite fst_split_map, snd_split_map. apply copies_runs. Qed.

  Lemma runs_in l p : In p (runs leb l) -> In (fst p) l.
  Proof.
    revert p. induction l as [|x r IH]; simpl; [tauto|]. intros p H.
    destruct (runs leb r) as [|[y k] q].
    - destruct H as [<-|[]]. now left.
    - destruct (eqb_spec x y) as [->|N].
      + destruct H as [<-|H]; [now left|]. right. apply IH. now right.
      + destruct H as [<-|H]; [now left|]. right. now apply IH.
  Qed.

  Lemma runs_strict l : sorted leb l ->
    StronglySorted (fun x y => leb x y = true /\ x <> y) (map fst (runs leb l)).
  Proof.
    induction 1 as [|x r Hr IH Hx]; simpl; [constructor|].
    rewrite Forall_forall in Hx.
    pose proof (runs_in r) as Hin.
    destruct (runs leb r) as [|[y k] q]; [repeat constructor|].
    destruct (eqb_spec x y) as [->|N]; simpl in *; [assumption|].
    constructor; [assumption|].
    inversion IH as [|? ? Hq Hy]; subst.
    constructor.
    - split; [|assumption]. apply Hx. apply (Hin (y, k)). now left.
    - apply Forall_forall. intros z Hz. rewrite Forall_forall in Hy.
      destruct (Hy z Hz) as [L1 L2].
      assert (leb x y = true) as L0 by (apply Hx; apply (Hin (y, k)); now left).
      split; [now apply trans with y|].
      intros ->. apply N. now apply antisym.
  Qed.

  Lemma np_unique_canonical l :
    canonical leb (fst (np_unique leb l)) (snd (np_unique leb l)).
  Proof.
    unfold np_unique. split; [apply split_runs_length|]. split.
    - rewrite fst_split_map. apply runs_strict. now apply isort_sorted.
    - rewrite snd_split_map. apply Forall_map. apply runs_pos.
  Qed.

  Lemma np_unique_copies l :
    copies (fst (np_unique leb l)) (snd (np_unique leb l)) = isort leb l.
  Proof. apply copies_split_runs. Qed.

  Lemma canonical_nonneg xs ns : canonical leb xs ns -> Forall (fun n => (0 <= n)%Z) ns.
  Proof. intros (_ & _ & F). eapply Forall_impl; [|exact F]. simpl. lia. Qed.

  (** A canonical list of runs is recovered from its expansion. *)
  Lemma runs_repeat x n l :
    (forall y, In y l -> y <> x) ->
    runs leb (repeat x (S n) ++ l) = (x, Z.of_nat (S n)) :: runs leb l.
  Proof.
    intros Hl. induction n as [|n IH].
    - cbn [repeat app]. cbn [runs].
      pose proof (runs_in l) as Hin.
      destruct (runs leb l) as [|[y k] q]; [reflexivity|].
      destruct (eqb_spec x y) as [->|N]; [|reflexivity].
      exfalso. apply (Hl y); [|reflexivity]. apply (Hin (y, k)). now left.
    - change (repeat x (S (S n)) ++ l) with (x :: (repeat x (S n) ++ l)).
      cbn [runs]. rewrite IH. destruct (eqb_spec x x) as [_|N]; [|congruence].
      f_equal. f_equal. lia.
  Qed.

  Lemma in_copies {A} (z : A) ys ns : In z (copies ys ns) -> In z ys.
  Proof.
    revert ns. induction ys as [|y ys IH]; intros [|n ns]; simpl; try tauto.
    intros Hz. apply in_app_or in Hz as [Hz|Hz].
    - apply repeat_spec in Hz. auto.
    - right. eauto.
  Qed.

  Lemma runs_copies xs ns : canonical leb xs ns -> runs leb (copies xs ns) = combine xs ns.
  Proof.
    revert ns. induction xs as [|x xs IH]; intros [|n ns] (HL & HS & HF); simpl in *;
      try discriminate; [reflexivity|].
    inversion HS as [|? ? HS' Hx]; subst. inversion HF as [|? ? Hn HF']; subst.
    destruct (Z.to_nat n) as [|m] eqn:E; [lia|].
    change (x :: repeat x m ++ copies xs ns) with (repeat x (S m) ++ copies xs ns).
    rewrite runs_repeat.
    - rewrite IH; [|now repeat split; auto]. f_equal. f_equal. lia.
    - intros y Hy Ey. subst y. rewrite Forall_forall in Hx.
      destruct (Hx x) as [_ N]; [|congruence].
      now apply in_copies in Hy.
  Qed.

  Lemma copies_sorted xs ns : canonical leb xs ns -> sorted leb (copies xs ns).
  Proof.
    revert ns. induction xs as [|x xs IH]; intros [|n ns] (HL & HS & HF); simpl in *;
      try discriminate; try constructor.
    inversion HS as [|? ? HS' Hx]; subst. inversion HF as [|? ? Hn HF']; subst.
    assert (sorted leb (copies xs ns)) as Hs by (apply IH; repeat split; auto).
    assert (forall y, In y (copies xs ns) -> leb x y = true) as Hle.
    { intros y Hy. rewrite Forall_forall in Hx.
      now apply Hx, (in_copies _ _ _ Hy). }
    induction (Z.to_nat n) as [|m IHm]; simpl; [assumption|].
    constructor; [assumption|]. apply Forall_forall. intros y Hy.
    apply in_app_or in Hy as [Hy|Hy]; [|auto]. apply repeat_spec in Hy. subst. apply leb_refl.
  Qed.

  Lemma np_unique_of_copies xs ns :
    canonical leb xs ns -> np_unique leb (copies xs ns) = (xs, ns).
  Proof.
    intros H. unfold np_unique. rewrite isort_id; auto using copies_sorted.
    rewrite runs_copies by assumption. apply combine_split. apply H.
  Qed.

  Lemma np_unique_perm l1 l2 : Permutation l1 l2 -> np_unique leb l1 = np_unique leb l2.
  Proof. intros P. unfold np_unique. now rewrite (isort_perm_eq leb total trans antisym l1 l2 P). Qed.

  (** ** FR -> FNRN -> FR *)
  Lemma FR_to_FNRN_eq f r :
    FR_to_FNRN leb f r =
    mkFNRN (fst (np_unique leb f)) (snd (np_unique leb f))
      (option_map (fun l => fst (np_unique leb l)) r)
      (option_map (fun l => snd (np_unique leb l)) r).
  Proof.
    unfold FR_to_FNRN. destruct (np_unique leb f) as [a b]. destruct r as [l|]; [|reflexivity].
    simpl. now destruct (np_unique leb l).
  Qed.

  Lemma fr_fnrn_fr f r :
    FNRN_to_FR (fn_failures (FR_to_FNRN leb f r)) (fn_num_failures (FR_to_FNRN leb f r))
      (fn_right_censored (FR_to_FNRN leb f r)) (fn_num_right_censored (FR_to_FNRN leb f r))
    = Ok (mkFR (isort leb f) (option_map (isort leb) r)).
  Proof.
    rewrite FR_to_FNRN_eq. simpl. unfold FNRN_to_FR.
    destruct (np_unique_canonical f) as (HL & _ & _).
    rewrite HL, Nat.eqb_refl. simpl.
    rewrite expand_ok by (eapply canonical_nonneg, np_unique_canonical).
    rewrite np_unique_copies. simpl. destruct r as [l|]; simpl; [|reflexivity].
    destruct (np_unique_canonical l) as (HL' & _ & _).
    rewrite HL', Nat.eqb_refl. simpl.
    rewrite expand_ok by (eapply canonical_nonneg, np_unique_canonical).
    now rewrite np_unique_copies.
  Qed.

  (** Number of occurrences. *)
  Lemma occurrences_repeat x y n :
    List.length (filter (eqb leb x) (repeat y n)) = if eqb leb x y then n else 0%nat.
  Proof.
    induction n as [|n IH]; simpl; [now destruct (eqb leb x y)|].
    destruct (eqb leb x y); simpl; now rewrite IH.
  Qed.

  Lemma occurrences_absent x l : ~ In x l -> filter (eqb leb x) l = [].
  Proof.
    induction l as [|y l IH]; simpl; [reflexivity|]. intros H.
    destruct (eqb_spec x y) as [->|N]; [exfalso; auto|]. apply IH. auto.
  Qed.

  Lemma copies_occurrences xs ns x n :
    canonical leb xs ns -> In (x, n) (combine xs ns) ->
    Z.of_nat (List.length (filter (eqb leb x) (copies xs ns))) = n.
  Proof.
    revert ns. induction xs as [|y xs IH]; intros [|m ns] (HL & HS & HF) Hin; simpl in *;
      try discriminate; [contradiction|].
    inversion HS as [|? ? HS' Hx]; subst. inversion HF as [|? ? Hn HF']; subst.
    rewrite filter_app, app_length, occurrences_repeat, Nat2Z.inj_add.
    destruct Hin as [E|Hin].
    - inversion E; subst. destruct (eqb_spec x x) as [_|N]; [|congruence].
      rewrite occurrences_absent; [simpl; lia|].
      intros Hc. apply in_copies in Hc. rewrite Forall_forall in Hx. destruct (Hx x Hc). congruence.
    - destruct (eqb_spec x y) as [->|N].
      + exfalso. rewrite Forall_forall in Hx. destruct (Hx y); [|congruence].
        now apply in_combine_l in Hin.
      + rewrite IH; [reflexivity| repeat split; auto| assumption].
  Qed.

  Lemma filter_perm_length {A} (p : A -> bool) l1 l2 :
    Permutation l1 l2 -> List.length (filter p l1) = List.length (filter p l2).
  Proof.
    induction 1; simpl; try congruence.
    - destruct (p x); simpl; congruence.
    - destruct (p x), (p y); reflexivity.
  Qed.

  Lemma np_unique_counts l x n :
    In (x, n) (combine (fst (np_unique leb l)) (snd (np_unique leb l))) ->
    Z.of_nat (List.length (filter (eqb leb x) l)) = n.
  Proof.
    intros H. rewrite (filter_perm_length _ _ _ (isort_perm leb l)).
    rewrite <- np_unique_copies. apply copies_occurrences; [apply np_unique_canonical|assumption].
  Qed.

  Lemma np_unique_total l :
    fold_right Z.add 0%Z (snd (np_unique leb l)) = Z.of_nat (List.length l).
  Proof.
    rewrite <- (copies_length (fst (np_unique leb l)) (snd (np_unique leb l))).
    - now rewrite np_unique_copies, isort_length.
    - apply np_unique_canonical.
    - eapply canonical_nonneg, np_unique_canonical.
  Qed.

  (** ** The XCN loop *)
  Lemma copies_cons {A} (x : A) n xs ns :
    copies (x :: xs) (n :: ns) = repeat x (Z.to_nat n) ++ copies xs ns.
  Proof. reflexivity. Qed.

  Lemma xcn_loop_inv fc cc (X : list T) C N f r f' r' :
    List.length X = List.length C -> List.length X = List.length N ->
    xcn_loop fc cc X C N f r = Ok (f', r') ->
    exists flags, Forall2 (fun c b => classify fc cc c = Some b) C flags /\
      Forall (fun n => (0 <= n)%Z) N /\
      f' = f ++ map fst (filter (fun o => snd o) (copies (combine X flags) N)) /\
      r' = r ++ map fst (filter (fun o => negb (snd o)) (copies (combine X flags) N)).
  Proof.
    revert C N f r. induction X as [|x X IH]; intros [|c C] [|n N] f r H1 H2 H; simpl in *;
      try discriminate.
    - inversion H; subst. exists []. simpl. rewrite !app_nil_r. repeat split; constructor.
    - destruct (classify fc cc c) as [b|] eqn:E; [|discriminate].
      unfold ones_times in H. destruct (Z.ltb_spec n 0) as [Hn|Hn]; simpl in H; [destruct b; discriminate|].
      assert (forall b, map (@fst T bool) (filter (fun o => snd o) (repeat (x, b) (Z.to_nat n))) =
                        if b then repeat x (Z.to_nat n) else []) as R1.
      { clear. intros [|]; induction (Z.to_nat n); simpl; auto; now f_equal. }
      assert (forall b, map (@fst T bool) (filter (fun o => negb (snd o)) (repeat (x, b) (Z.to_nat n))) =
                        if b then [] else repeat x (Z.to_nat n)) as R2.
      { clear. intros [|]; induction (Z.to_nat n); simpl; auto; now f_equal. }
      destruct b.
      + destruct (IH C N _ _ ltac:(lia) ltac:(lia) H) as (fl & HF & HN & Hf & Hr).
        exists (true :: fl). rewrite copies_cons || simpl.
        split; [constructor; auto|]. split; [constructor; auto|].
        cbn [combine copies]. rewrite !filter_app, !map_app, R1, R2. simpl.
        rewrite app_assoc. auto.
      + destruct (IH C N _ _ ltac:(lia) ltac:(lia) H) as (fl & HF & HN & Hf & Hr).
        exists (false :: fl).
        split; [constructor; auto|]. split; [constructor; auto|].
        cbn [combine copies]. rewrite !filter_app, !map_app, R1, R2. simpl.
        rewrite app_assoc. auto.
  Qed.

  Lemma xcn_loop_ok fc cc (X : list T) C N f r flags :
    List.length X = List.length C -> List.length X = List.length N ->
    Forall2 (fun c b => classify fc cc c = Some b) C flags ->
    Forall (fun n => (0 <= n)%Z) N ->
    exists f' r', xcn_loop fc cc X C N f r = Ok (f', r').
  Proof.
    intros H1 H2 HF. revert X N f r H1 H2.
    induction HF as [|c b C flags Hc HF IH]; intros [|x X] [|n N] f r H1 H2 HN; simpl in *;
      try discriminate; [eauto|].
    rewrite Hc. inversion HN; subst. unfold ones_times.
    replace (n <? 0)%Z with false by (symmetry; now apply Z.ltb_ge). simpl.
    destruct b; apply IH; auto; lia.
  Qed.

  Lemma split_perm (l : list (T * bool)) :
    Permutation (map (fun x => (x, true)) (map fst (filter (fun o => snd o) l)) ++
                 map (fun x => (x, false)) (map fst (filter (fun o => negb (snd o)) l))) l.
  Proof.
    induction l as [|[x b] l IH]; simpl; [reflexivity|].
    destruct b; simpl.
    - now constructor.
    - symmetry. apply Permutation_cons_app. now symmetry.
  Qed.

  Lemma opt_list_none_some {A} (r : list A) :
    opt_list (match r with [] => None | _ => Some r end) = r.
  Proof. now destruct r. Qed.

  Definition quantities (X : list T) (N : option (list Z)) : list Z :=
    match N with None => map (fun _ => 1%Z) X | Some n => n end.

  Lemma forall2_upper fc cc C flags :
    Forall2 (fun c b => classify (option_map code_upper fc) (option_map code_upper cc) c = Some b)
      (map code_upper C) flags <->
    Forall2 (means fc cc) C flags.
  Proof.
    revert flags. induction C as [|c C IH]; intros [|b flags]; simpl; split; intro H;
      inversion H; subst; constructor; auto; try (now apply classify_means);
      try now apply IH.
  Qed.

  Lemma XCN_to_FR_sound (X : list T) C N cc fc fr :
    XCN_to_FR X C N cc fc = Ok fr ->
    List.length X = List.length C /\ List.length X = List.length (quantities X N) /\
    at_most_two_codes C /\
    Forall (fun n => (0 <= n)%Z) (quantities X N) /\
    exists flags, Forall2 (means fc cc) C flags /\
      fr_failures fr = map fst (filter (fun o => snd o) (copies (combine X flags) (quantities X N))) /\
      opt_list (fr_right_censored fr) =
        map fst (filter (fun o => negb (snd o)) (copies (combine X flags) (quantities X N))) /\
      (fr_right_censored fr <> Some []).
  Proof.
    unfold XCN_to_FR. fold (quantities X N). set (NN := quantities X N).
    destruct (Nat.eqb_spec (List.length X) (List.length C)) as [E1|]; [|discriminate]. simpl.
    destruct (Nat.eqb_spec (List.length X) (List.length NN)) as [E2|]; [|discriminate]. simpl.
    destruct (Nat.ltb_spec 2 (n_unique_codes (map code_upper C))) as [|E3]; [discriminate|].
    destruct (xcn_loop _ _ X (map code_upper C) NN [] []) as [[f r]|] eqn:E; simpl; [|discriminate].
    intros H. inversion H; subst. clear H.
    apply xcn_loop_inv in E; [|now rewrite map_length|assumption].
    destruct E as (flags & HF & HN & Hf & Hr). simpl in Hf, Hr.
    repeat split; auto.
    - now apply n_unique_le2.
    - exists flags. repeat split.
      + now apply forall2_upper.
      + simpl. now subst f.
      + simpl. rewrite opt_list_none_some. now subst r.
      + simpl. destruct r; discriminate.
  Qed.

  Lemma XCN_to_FR_complete (X : list T) C N cc fc flags :
    List.length X = List.length C -> List.length X = List.length (quantities X N) ->
    at_most_two_codes C -> Forall (fun n => (0 <= n)%Z) (quantities X N) ->
    Forall2 (means fc cc) C flags ->
    exists fr, XCN_to_FR X C N cc fc = Ok fr.
  Proof.
    intros H1 H2 H3 H4 H5. unfold XCN_to_FR. fold (quantities X N). set (NN := quantities X N) in *.
    rewrite H1, Nat.eqb_refl. simpl. rewrite <- H1, H2, Nat.eqb_refl. simpl.
    apply n_unique_le2 in H3.
    destruct (Nat.ltb_spec 2 (n_unique_codes (map code_upper C))); [lia|].
    apply forall2_upper in H5.
    destruct (xcn_loop_ok (option_map code_upper fc) (option_map code_upper cc) X (map code_upper C) NN [] [] flags) as (f & r & E); auto.
    { now rewrite map_length. }
    rewrite E. simpl. eauto.
  Qed.

  Lemma XCN_to_FR_err_value (X : list T) C N cc fc e :
    XCN_to_FR X C N cc fc = Err e -> e = ValueError.
  Proof.
    unfold XCN_to_FR. fold (quantities X N). set (NN := quantities X N).
    destruct (negb _); [now inversion 1|]. destruct (negb _); [now inversion 1|].
    destruct (2 <? _)%nat; [now inversion 1|].
    assert (forall D NN (f r : list T) e,
      xcn_loop (option_map code_upper fc) (option_map code_upper cc) X D NN f r = Err e -> e = ValueError) as L.
    { clear. induction X as [|x X' IH]; intros [|c D] [|n NN] f r e0; simpl; try discriminate.
      destruct (classify _ _ c) as [[]|]; [| |now inversion 1];
        unfold ones_times; destruct (n <? 0)%Z; simpl; try (now inversion 1); apply IH. }
    destruct (xcn_loop _ _ X _ NN [] []) as [[? ?]|e0] eqn:E; simpl; [discriminate|].
    inversion 1; subst. eauto.
  Qed.

  (** ** FR -> XCN -> FR *)
  Lemma np_coerce_same (a b : code) n m :
    is_str a = is_str b -> np_coerce (repeat a n ++ repeat b m) = repeat a n ++ repeat b m.
  Proof.
    intros E. unfold np_coerce. destruct (existsb is_str (repeat a n ++ repeat b m)) eqn:X; [|reflexivity].
    apply existsb_exists in X as (c & Hc & Hs).
    assert (is_str a = true /\ is_str b = true) as [Ha Hb].
    { apply in_app_or in Hc as [Hc|Hc]; apply repeat_spec in Hc; subst; split; congruence. }
    destruct a, b; try discriminate. rewrite map_app, !map_repeat. reflexivity.
  Qed.

  Lemma at_most_two_repeat (a b : code) n m :
    at_most_two_codes (np_coerce (repeat a n ++ repeat b m)).
  Proof.
    unfold at_most_two_codes.
    assert (forall (g : code -> code) (l : list code), (forall c, In c l -> c = a \/ c = b) ->
            forall c, In c (map g l) -> c = g a \/ c = g b) as HM.
    { intros g l H c Hc. apply in_map_iff in Hc as (d & <- & Hd). destruct (H d Hd); subst; auto. }
    assert (forall c, In c (repeat a n ++ repeat b m) -> c = a \/ c = b) as H0.
    { intros c Hc. apply in_app_or in Hc as [Hc|Hc]; apply repeat_spec in Hc; auto. }
    assert (exists g, np_coerce (repeat a n ++ repeat b m) = map g (repeat a n ++ repeat b m)) as (g & Eg).
    { unfold np_coerce. destruct (existsb _ _); [eexists; reflexivity|]. exists (fun x => x). now rewrite map_id. }
    rewrite Eg.
    set (l := map code_upper (map g (repeat a n ++ repeat b m))).
    assert (exists h, np_coerce l = map h l) as (h & Eh).
    { unfold np_coerce. destruct (existsb _ _); [eexists; reflexivity|]. exists (fun x => x). now rewrite map_id. }
    rewrite Eh. unfold l. rewrite !map_map. eexists _, _. apply HM. exact H0.
  Qed.

  Lemma forall2_repeat {A B} (R : A -> B -> Prop) a b n : R a b -> Forall2 R (repeat a n) (repeat b n).
  Proof. intros H. induction n; simpl; constructor; auto. Qed.

  Lemma Forall2_fun {A B} (R : A -> B -> Prop) l l1 l2 :
    (forall a b c, R a b -> R a c -> b = c) -> Forall2 R l l1 -> Forall2 R l l2 -> l1 = l2.
  Proof.
    intros HR H1. revert l2. induction H1; intros l2 H2; inversion H2; subst; [reflexivity|].
    f_equal; eauto.
  Qed.

  Lemma means_fun fc cc c b1 b2 : means fc cc c b1 -> means fc cc c b2 -> b1 = b2.
  Proof. rewrite <- !classify_means. congruence. Qed.

  Lemma combine_repeat {A B} (xs : list A) (b : B) :
    combine xs (repeat b (List.length xs)) = map (fun x => (x, b)) xs.
  Proof. induction xs; simpl; congruence. Qed.

  Lemma combine_app2 {A B} (x1 x2 : list A) (y1 y2 : list B) :
    List.length x1 = List.length y1 -> combine (x1 ++ x2) (y1 ++ y2) = combine x1 y1 ++ combine x2 y2.
  Proof.
    revert y1. induction x1 as [|a x1 IH]; intros [|b y1] H; simpl in *; try discriminate; [reflexivity|].
    now rewrite IH by lia.
  Qed.

  Lemma filter_true_map (xs : list T) (p : T * bool -> bool) b :
    (forall x, p (x, b) = true) -> filter p (map (fun x => (x, b)) xs) = map (fun x => (x, b)) xs.
  Proof. intros H. induction xs as [|x xs IH]; simpl; [reflexivity|]. now rewrite H, IH. Qed.
  Lemma filter_false_map (xs : list T) (p : T * bool -> bool) b :
    (forall x, p (x, b) = false) -> filter p (map (fun x => (x, b)) xs) = [].
  Proof. intros H. induction xs as [|x xs IH]; simpl; [reflexivity|]. now rewrite H, IH. Qed.

  Definition none_if_empty (o : option (list T)) : option (list T) :=
    match o with Some (x :: l) => Some (x :: l) | _ => None end.

  (** Reading back assembled columns, under any reading of the two codes. *)
  Lemma read_columns fc cc a b (xs : list T) ns (ys : list T) ms :
    List.length xs = List.length ns -> List.length ys = List.length ms ->
    Forall (fun n => (0 <= n)%Z) ns -> Forall (fun n => (0 <= n)%Z) ms ->
    at_most_two_codes (repeat a (List.length xs) ++ repeat b (List.length ys)) ->
    means fc cc a true -> (ys <> [] -> means fc cc b false) ->
    XCN_to_FR (xs ++ ys) (repeat a (List.length xs) ++ repeat b (List.length ys))
      (Some (ns ++ ms)) cc fc
    = Ok (mkFR (copies xs ns) (match copies ys ms with [] => None | l => Some l end)).
  Proof.
    intros L1 L2 N1 N2 H2 Ha Hb.
    destruct (XCN_to_FR_complete (xs ++ ys) (repeat a (List.length xs) ++ repeat b (List.length ys))
      (Some (ns ++ ms)) cc fc (repeat true (List.length xs) ++ repeat false (List.length ys))) as (fr & E).
    - now rewrite !app_length, !repeat_length.
    - simpl. rewrite !app_length. lia.
    - assumption.
    - simpl. apply Forall_app. auto.
    - apply Forall2_app; [now apply forall2_repeat|].
      destruct ys; simpl; [constructor|]. apply (forall2_repeat _ _ _ (S _)). apply Hb. discriminate.
    - rewrite E. f_equal.
      apply XCN_to_FR_sound in E as (_ & _ & _ & _ & flags & HF & Hf & Hr & Hne).
      assert (flags = repeat true (List.length xs) ++ repeat false (List.length ys)) as ->.
      { eapply Forall2_fun; [apply means_fun|exact HF|].
        apply Forall2_app; [now apply forall2_repeat|].
        destruct ys; simpl; [constructor|]. apply (forall2_repeat _ _ _ (S _)). apply Hb. discriminate. }
      simpl in Hf, Hr.
      rewrite combine_app2, !combine_repeat, copies_app in Hf, Hr by (rewrite ?map_length, ?repeat_length; lia).
      rewrite <- !copies_map, filter_app in Hf, Hr.
      rewrite (filter_true_map _ _ true), (filter_false_map _ _ false), app_nil_r, map_map, map_id in Hf by reflexivity.
      rewrite (filter_true_map _ _ false), (filter_false_map _ _ true), map_app, map_map, map_id in Hr by reflexivity.
      simpl in Hr. destruct fr as [ff rr]. simpl in *. subst ff. f_equal.
      destruct rr as [[|z l]|]; simpl in Hr; [congruence| |]; now rewrite <- Hr.
  Qed.

  Lemma nil_app_r_columns (a b : code) n : repeat a n = repeat a n ++ repeat b 0.
  Proof. simpl. now rewrite app_nil_r. Qed.

  Lemma read_fnrn_columns fc cc a b f r :
    means fc cc a true -> means fc cc b false -> is_str a = is_str b ->
    let x := FR_to_XCN leb f r b a in
    XCN_to_FR (xcn_X x) (xcn_C x) (Some (xcn_N x)) cc fc
    = Ok (mkFR (isort leb f) (none_if_empty (option_map (isort leb) r))).
  Proof.
    intros Ha Hb Hs. unfold FR_to_XCN, fnrn_columns. rewrite FR_to_FNRN_eq. cbn zeta.
    cbn [fn_right_censored fn_num_right_censored fn_failures fn_num_failures].
    destruct r as [l|]; cbn [option_map xcn_X xcn_C xcn_N].
    - rewrite np_coerce_same by assumption.
      rewrite read_columns; auto; try apply np_unique_canonical;
        try (eapply canonical_nonneg, np_unique_canonical).
      + rewrite !np_unique_copies. unfold none_if_empty. now destruct (isort leb l).
      + rewrite <- (np_coerce_same a b) by assumption. apply at_most_two_repeat.
    - rewrite (nil_app_r_columns a b).
      pose proof (read_columns fc cc a b (fst (np_unique leb f)) (snd (np_unique leb f)) [] []) as R.
      simpl in R. rewrite !app_nil_r in *. rewrite R; auto; try apply np_unique_canonical;
        try (eapply canonical_nonneg, np_unique_canonical); try constructor.
      + now rewrite np_unique_copies.
      + rewrite (nil_app_r_columns a b), <- (np_coerce_same a b) by assumption. apply at_most_two_repeat.
  Qed.

  Lemma codes_ok_means a b : codes_ok b a ->
    means (Some a) (Some b) a true /\ means (Some a) (Some b) b false.
  Proof.
    intros [N _]. split; simpl.
    - left. reflexivity.
    - split; [|now left]. simpl. congruence.
  Qed.

  Lemma fr_xcn_fr f r cc fc :
    codes_ok cc fc ->
    let x := FR_to_XCN leb f r cc fc in
    XCN_to_FR (xcn_X x) (xcn_C x) (Some (xcn_N x)) (Some cc) (Some fc)
    = Ok (mkFR (isort leb f) (none_if_empty (option_map (isort leb) r))).
  Proof.
    intros H. destruct (codes_ok_means fc cc H) as [Ha Hb].
    apply read_fnrn_columns; auto. apply H.
  Qed.

  (** ** FNRN -> XCN -> FNRN *)
  Lemma fnrn_xcn_fnrn f nf r nr cc fc :
    codes_ok cc fc -> canonical leb f nf ->
    match r, nr with
    | Some l, Some m => l <> [] /\ canonical leb l m
    | None, None => True
    | _, _ => False
    end ->
    exists x, FNRN_to_XCN leb f nf r nr cc fc = Ok x /\
      XCN_to_FNRN leb (xcn_X x) (xcn_C x) (Some (xcn_N x)) (Some cc) (Some fc)
      = Ok (mkFNRN f nf r nr).
  Proof.
    intros Hc Hf Hr. unfold FNRN_to_XCN, FNRN_to_FR.
    destruct Hf as (HL & HS & HP) eqn:Ef. clear Ef.
    assert (canonical leb f nf) as Hf' by (repeat split; auto).
    rewrite HL, Nat.eqb_refl. simpl. rewrite expand_ok by now apply canonical_nonneg with f. simpl.
    destruct r as [l|], nr as [m|]; try contradiction.
    - destruct Hr as [Hne Hr]. pose proof (proj1 Hr) as HL2. rewrite HL2, Nat.eqb_refl. simpl.
      rewrite expand_ok by now apply canonical_nonneg with l. simpl.
      eexists. split; [reflexivity|]. unfold XCN_to_FNRN.
      change (fnrn_columns (FR_to_FNRN leb (copies f nf) (Some (copies l m))) cc fc)
        with (FR_to_XCN leb (copies f nf) (Some (copies l m)) cc fc).
      rewrite fr_xcn_fr by assumption. simpl.
      rewrite !isort_id by (auto using copies_sorted).
      assert (copies l m <> []) as Hn.
      { destruct l as [|y l]; [congruence|]. destruct m as [|k m]; [discriminate|].
        destruct Hr as (_ & _ & F). inversion F; subst. simpl.
        destruct (Z.to_nat k) eqn:E; [lia|]. discriminate. }
      destruct (copies l m) as [|z q] eqn:E; [congruence|]. simpl. rewrite <- E.
      rewrite FR_to_FNRN_eq. simpl. now rewrite !np_unique_of_copies by assumption.
    - eexists. split; [reflexivity|]. unfold XCN_to_FNRN. simpl.
      change (fnrn_columns (FR_to_FNRN leb (copies f nf) None) cc fc)
        with (FR_to_XCN leb (copies f nf) None cc fc).
      rewrite fr_xcn_fr by assumption. simpl.
      rewrite isort_id by (auto using copies_sorted).
      rewrite FR_to_FNRN_eq. simpl. now rewrite np_unique_of_copies by assumption.
  Qed.

  (** ** Meaning is preserved by every converter *)
  Lemma fr_obs_perm (f f' : list T) r r' :
    Permutation f f' -> Permutation (opt_list r) (opt_list r') ->
    Permutation (fr_obs f r) (fr_obs f' r').
  Proof. intros P Q. unfold fr_obs. now rewrite P, Q. Qed.

  Lemma fnrn_obs_eq f r :
    let x := FR_to_FNRN leb f r in
    Permutation (fnrn_obs (fn_failures x) (fn_num_failures x) (fn_right_censored x) (fn_num_right_censored x))
      (fr_obs f r).
  Proof.
    rewrite FR_to_FNRN_eq. simpl. unfold fnrn_obs, fr_obs. rewrite np_unique_copies.
    apply Permutation_app.
    - apply Permutation_map. symmetry. apply isort_perm.
    - apply Permutation_map. destruct r as [l|]; simpl; [|reflexivity].
      rewrite np_unique_copies. symmetry. apply isort_perm.
  Qed.

  Lemma xcn_fr_obs (X : list T) C N cc fc fr :
    XCN_to_FR X C N cc fc = Ok fr ->
    exists flags, Forall2 (means fc cc) C flags /\
      Permutation (fr_obs (fr_failures fr) (fr_right_censored fr))
        (copies (combine X flags) (quantities X N)).
  Proof.
    intros H. apply XCN_to_FR_sound in H as (_ & _ & _ & _ & flags & HF & Hf & Hr & _).
    exists flags. split; [assumption|]. unfold fr_obs. rewrite Hf, Hr. apply split_perm.
  Qed.

  Lemma fnrn_fr_obs (f : list T) nf r nr fr :
    FNRN_to_FR f nf r nr = Ok fr ->
    fr_obs (fr_failures fr) (fr_right_censored fr) =
    fnrn_obs f nf r (match r with None => None | _ => nr end).
  Proof.
    unfold FNRN_to_FR. destruct (Nat.eqb_spec (List.length f) (List.length nf)) as [E|]; [|discriminate].
    simpl. destruct (expand f nf) as [a|] eqn:Ea; simpl; [|discriminate].
    apply expand_inv in Ea as [_ ->]; [|assumption].
    destruct r as [l|]; [|inversion 1; reflexivity].
    destruct nr as [m|]; [|discriminate].
    destruct (Nat.eqb_spec (List.length l) (List.length m)) as [E'|]; [|discriminate]. simpl.
    destruct (expand l m) as [b|] eqn:Eb; simpl; [|discriminate].
    apply expand_inv in Eb as [_ ->]; [|assumption]. inversion 1. reflexivity.
  Qed.

  Lemma fr_xcn_obs f r cc fc is_failure :
    is_str fc = is_str cc -> is_failure fc = true -> is_failure cc = false ->
    let x := FR_to_XCN leb f r cc fc in
    Permutation (xcn_obs is_failure (xcn_X x) (xcn_C x) (xcn_N x)) (fr_obs f r).
  Proof.
    intros Hs H1 H2. unfold FR_to_XCN, fnrn_columns. rewrite FR_to_FNRN_eq. cbn zeta.
    cbn [fn_right_censored fn_num_right_censored fn_failures fn_num_failures].
    destruct r as [l|]; cbn [option_map xcn_X xcn_C xcn_N]; unfold xcn_obs.
    - rewrite np_coerce_same by assumption. rewrite map_app, !map_repeat, H1, H2.
      rewrite combine_app2 by now rewrite repeat_length.
      rewrite !combine_repeat, copies_app by (rewrite map_length; apply np_unique_canonical).
      rewrite <- !copies_map, !np_unique_copies. unfold fr_obs. simpl.
      apply Permutation_app; apply Permutation_map; symmetry; apply isort_perm.
    - rewrite map_repeat, H1, combine_repeat, <- copies_map, np_unique_copies.
      unfold fr_obs. simpl. rewrite app_nil_r. apply Permutation_map. symmetry. apply isort_perm.
  Qed.

  (** ** xlsx_to_XCN with the default output codes *)
  Lemma recode_inv fi ci fo co C C_out :
    recode fi ci fo co C = Ok C_out ->
    exists flags, Forall2 (fun c b => classify fi ci c = Some b) C flags /\
      C_out = map (fun b : bool => if b then fo else co) flags.
  Proof.
    revert C_out. induction C as [|c C IH]; simpl; intros C_out H.
    - inversion H. exists []. split; constructor.
    - destruct (classify fi ci c) as [[]|] eqn:E; [| |discriminate];
        (destruct (recode fi ci fo co C) as [o|]; simpl in H; [|discriminate];
         inversion H; subst; destruct (IH o eq_refl) as (fl & HF & ->)).
      + exists (true :: fl). split; [constructor; auto|reflexivity].
      + exists (false :: fl). split; [constructor; auto|reflexivity].
  Qed.

  Lemma np_coerce_strings l : forallb is_str l = true -> np_coerce l = l.
  Proof.
    intros H. unfold np_coerce. destruct (existsb is_str l); [|reflexivity].
    induction l as [|[s|n] l IH]; simpl in *; try discriminate; [reflexivity|].
    now rewrite IH.
  Qed.

  Lemma np_coerce_nums l : forallb (fun c => negb (is_str c)) l = true -> np_coerce l = l.
  Proof.
    intros H. unfold np_coerce. replace (existsb is_str l) with false; [reflexivity|].
    induction l as [|[s|n] l IH]; simpl in *; try discriminate; [reflexivity|]. auto.
  Qed.

  Lemma np_coerce_uniform l (b : bool) : (forall c, In c l -> is_str c = b) -> np_coerce l = l.
  Proof.
    intros H. destruct b.
    - apply np_coerce_strings. apply forallb_forall. auto.
    - apply np_coerce_nums. apply forallb_forall. intros c Hc. now rewrite (H c Hc).
  Qed.

  Lemma Forall2_map_l {A B D} (R : B -> D -> Prop) (g : A -> B) l1 l2 :
    Forall2 R (map g l1) l2 -> Forall2 (fun a d => R (g a) d) l1 l2.
  Proof.
    revert l2. induction l1 as [|a l1 IH]; simpl; intros l2 H; inversion H; subst; constructor; auto.
  Qed.

  Lemma xlsx_to_XCN_meaning (X : list T) C0 N ci fi co fo is_failure x :
    means None None fo true -> means None None co false -> is_str fo = is_str co ->
    is_failure fo = true -> is_failure co = false ->
    xlsx_to_XCN leb X C0 N ci fi co fo = Ok x ->
    exists flags, Forall2 (means fi ci) C0 flags /\
      Permutation (xcn_obs is_failure (xcn_X x) (xcn_C x) (xcn_N x))
        (copies (combine X flags) (quantities X N)).
  Proof.
    intros M1 M2 Hs I1 I2. unfold xlsx_to_XCN. fold (quantities X N).
    destruct (2 <? _)%nat; [discriminate|].
    destruct (recode _ _ fo co _) as [C_out|] eqn:E; simpl; [|discriminate].
    apply recode_inv in E as (flags & HF & ->).
    destruct (_ || _); [discriminate|].
    rewrite (np_coerce_uniform _ (is_str fo)).
    2:{ intros c Hc. apply in_map_iff in Hc as ([] & <- & _); congruence. }
    destruct (XCN_to_FR X _ _ None None) as [fr|] eqn:E; simpl; [|discriminate].
    inversion 1; subst x.
    exists flags. split.
    - now apply forall2_upper.
    - rewrite fr_xcn_obs by assumption.
      apply xcn_fr_obs in E as (fl2 & HF2 & P). rewrite P.
      replace fl2 with flags; [reflexivity|].
      apply Forall2_map_l in HF2.
      clear -HF2 M1 M2. induction HF2 as [|b1 b2 l1 l2 H HH IH]; [reflexivity|]. f_equal; [|assumption].
      destruct b1; eapply means_fun; [exact M1|exact H|exact M2|exact H].
  Qed.
End P.

Section Q.
  Context {T : Type} (leb : T -> T -> bool) (ord : total_order leb).
  Let total := to_total _ ord.
  Let trans := to_trans _ ord.
  Let antisym := to_antisym _ ord.

  Lemma isort_nil_iff (l : list T) : isort leb l = [] <-> l = [].
  Proof.
    split; intros H; [|now subst].
    apply length_zero_iff_nil. rewrite <- (isort_length leb l). now rewrite H.
  Qed.

  Lemma fr_xcn_fr_spec failures right_censored censor_code failure_code :
    codes_ok censor_code failure_code ->
    let x := FR_to_XCN leb failures right_censored censor_code failure_code in
    exists f r,
      XCN_to_FR (xcn_X x) (xcn_C x) (Some (xcn_N x)) (Some censor_code) (Some failure_code)
        = Ok (mkFR f r) /\
      Permutation f failures /\ sorted leb f /\
      Permutation (opt_list r) (opt_list right_censored) /\ sorted leb (opt_list r) /\
      (r = None <-> opt_list right_censored = []).
  Proof.
    intros H. cbv zeta. eexists _, _. split; [apply (fr_xcn_fr leb ord); assumption|].
    split; [symmetry; apply isort_perm|]. split; [now apply isort_sorted|].
    destruct right_censored as [l|]; simpl.
    - pose proof (isort_perm leb l) as P. pose proof (isort_sorted leb total trans l) as S.
      destruct (isort leb l) as [|y q] eqn:E; simpl.
      + apply (proj1 (isort_nil_iff l)) in E. subst. repeat split; constructor.
      + split; [now symmetry|]. split; [assumption|]. split; [discriminate|].
        intros ->. discriminate.
    - repeat split; constructor.
  Qed.

  Lemma fr_fnrn_fr_spec failures right_censored :
    let x := FR_to_FNRN leb failures right_censored in
    exists f r,
      FNRN_to_FR (fn_failures x) (fn_num_failures x)
        (fn_right_censored x) (fn_num_right_censored x) = Ok (mkFR f r) /\
      Permutation f failures /\ sorted leb f /\
      Permutation (opt_list r) (opt_list right_censored) /\ sorted leb (opt_list r) /\
      (r = None <-> right_censored = None).
  Proof.
    cbv zeta. eexists _, _. split; [apply (fr_fnrn_fr leb ord)|].
    split; [symmetry; apply isort_perm|]. split; [now apply isort_sorted|].
    destruct right_censored as [l|]; simpl.
    - split; [symmetry; apply isort_perm|]. split; [now apply isort_sorted|]. split; discriminate.
    - repeat split; constructor.
  Qed.

  Lemma in_copies_pos {A} (v : A) xs ns :
    List.length xs = List.length ns -> Forall (fun n => (1 <= n)%Z) ns ->
    In v xs -> In v (copies xs ns).
  Proof.
    revert ns. induction xs as [|x xs IH]; intros [|n ns] HL HF; simpl in *; try tauto; [discriminate|].
    inversion HF; subst. intros [->|H].
    - apply in_or_app. left. destruct (Z.to_nat n) eqn:E; [lia|]. now left.
    - apply in_or_app. right. apply IH; auto.
  Qed.

  Lemma np_unique_in l v : In v l <-> In v (fst (np_unique leb l)).
  Proof.
    pose proof (np_unique_canonical leb ord l) as (HL & _ & HF).
    split; intros H.
    - apply (in_copies v _ (snd (np_unique leb l))). rewrite (np_unique_copies leb ord).
      eapply Permutation_in; [apply isort_perm|assumption].
    - eapply Permutation_in; [symmetry; apply isort_perm|].
      rewrite <- (np_unique_copies leb ord). now apply in_copies_pos.
  Qed.

  Lemma fnrn_canonical_spec failures rc :
    let x := FR_to_FNRN leb failures (Some rc) in
    exists r nr, fn_right_censored x = Some r /\ fn_num_right_censored x = Some nr /\
      canonical leb (fn_failures x) (fn_num_failures x) /\ canonical leb r nr /\
      (forall v, In v failures <-> In v (fn_failures x)) /\ (forall v, In v rc <-> In v r) /\
      (forall v n, In (v, n) (combine (fn_failures x) (fn_num_failures x)) ->
         Z.of_nat (List.length (filter (eqb leb v) failures)) = n) /\
      (forall v n, In (v, n) (combine r nr) ->
         Z.of_nat (List.length (filter (eqb leb v) rc)) = n) /\
      fold_right Z.add 0%Z (fn_num_failures x) = Z.of_nat (List.length failures) /\
      fold_right Z.add 0%Z nr = Z.of_nat (List.length rc).
  Proof.
    cbv zeta. rewrite (FR_to_FNRN_eq leb ord) || rewrite FR_to_FNRN_eq. simpl.
    eexists _, _. split; [reflexivity|]. split; [reflexivity|].
    split; [now apply np_unique_canonical|]. split; [now apply np_unique_canonical|].
    split; [intro; apply np_unique_in|]. split; [intro; apply np_unique_in|].
    split; [intros v n; now apply np_unique_counts|].
    split; [intros v n; now apply np_unique_counts|].
    split; now apply np_unique_total.
  Qed.

  Lemma flags_map (is_failure : code -> bool) fc cc C flags :
    (forall c, In c C -> means fc cc c (is_failure c)) ->
    Forall2 (means fc cc) C flags -> flags = map is_failure C.
  Proof.
    intros H F. eapply Forall2_fun; [apply means_fun|exact F|].
    clear -H. induction C as [|c C IH]; simpl; constructor.
    - apply H. now left.
    - apply IH. intros. apply H. now right.
  Qed.

  Lemma conversions_preserve :
    (forall f r, let x := FR_to_FNRN leb f r in
       Permutation (fnrn_obs (fn_failures x) (fn_num_failures x)
                      (fn_right_censored x) (fn_num_right_censored x)) (fr_obs f r)) /\
    (forall (f : list T) nf r nr fr, FNRN_to_FR f nf (Some r) (Some nr) = Ok fr ->
       Permutation (fr_obs (fr_failures fr) (fr_right_censored fr))
         (fnrn_obs f nf (Some r) (Some nr))) /\
    (forall (f : list T) nf fr, FNRN_to_FR f nf None None = Ok fr ->
       Permutation (fr_obs (fr_failures fr) (fr_right_censored fr)) (fnrn_obs f nf None None)) /\
    (forall f r cc fc is_failure,
       is_str fc = is_str cc -> is_failure fc = true -> is_failure cc = false ->
       let x := FR_to_XCN leb f r cc fc in
       Permutation (xcn_obs is_failure (xcn_X x) (xcn_C x) (xcn_N x)) (fr_obs f r)) /\
    (forall (X : list T) C N cc fc is_failure fr,
       (forall c, In c C -> means fc cc c (is_failure c)) ->
       XCN_to_FR X C (Some N) cc fc = Ok fr ->
       Permutation (fr_obs (fr_failures fr) (fr_right_censored fr)) (xcn_obs is_failure X C N)) /\
    (forall (X : list T) C N cc fc is_failure fn,
       (forall c, In c C -> means fc cc c (is_failure c)) ->
       XCN_to_FNRN leb X C (Some N) cc fc = Ok fn ->
       Permutation (fnrn_obs (fn_failures fn) (fn_num_failures fn)
          (fn_right_censored fn) (fn_num_right_censored fn)) (xcn_obs is_failure X C N)) /\
    (forall f nf r nr cc fc is_failure x,
       is_str fc = is_str cc -> is_failure fc = true -> is_failure cc = false ->
       FNRN_to_XCN leb f nf (Some r) (Some nr) cc fc = Ok x ->
       Permutation (xcn_obs is_failure (xcn_X x) (xcn_C x) (xcn_N x))
         (fnrn_obs f nf (Some r) (Some nr))).
  Proof.
    assert (forall (X : list T) C N cc fc is_failure fr,
       (forall c, In c C -> means fc cc c (is_failure c)) ->
       XCN_to_FR X C (Some N) cc fc = Ok fr ->
       Permutation (fr_obs (fr_failures fr) (fr_right_censored fr)) (xcn_obs is_failure X C N)) as HX.
    { intros X C N cc fc isf fr H E. apply (xcn_fr_obs X C (Some N) cc fc) in E as (flags & F & P).
      rewrite P. simpl. unfold xcn_obs. now rewrite (flags_map _ _ _ _ _ H F). }
    repeat apply conj.
    - intros. now apply fnrn_obs_eq.
    - intros f nf r nr fr H. now rewrite (fnrn_fr_obs _ _ _ _ _ H).
    - intros f nf fr H. now rewrite (fnrn_fr_obs _ _ _ _ _ H).
    - intros. now apply fr_xcn_obs.
    - exact HX.
    - intros X C N cc fc isf fn H E. unfold XCN_to_FNRN in E.
      destruct (XCN_to_FR X C (Some N) cc fc) as [fr|] eqn:EF; simpl in E; [|discriminate].
      inversion E; subst. rewrite (fnrn_obs_eq leb ord). eauto.
    - intros f nf r nr cc fc isf x H1 H2 H3 E. unfold FNRN_to_XCN in E.
      destruct (FNRN_to_FR f nf (Some r) (Some nr)) as [fr|] eqn:EF; simpl in E; [|discriminate].
      inversion E; subst.
      change (fnrn_columns (FR_to_FNRN leb (fr_failures fr) (fr_right_censored fr)) cc fc)
        with (FR_to_XCN leb (fr_failures fr) (fr_right_censored fr) cc fc).
      rewrite (fr_xcn_obs leb ord) by assumption. now rewrite (fnrn_fr_obs _ _ _ _ _ EF).
  Qed.

  Lemma xlsx_to_XCN_meaning_doc (X : list T) C0 N ci fi co fo is_failure x :
    In (code_upper fo) documented_failure_codes -> In (code_upper co) documented_censored_codes ->
    is_str fo = is_str co -> is_failure fo = true -> is_failure co = false ->
    xlsx_to_XCN leb X C0 (Some N) ci fi co fo = Ok x ->
    exists failed, Forall2 (means fi ci) C0 failed /\
      Permutation (xcn_obs is_failure (xcn_X x) (xcn_C x) (xcn_N x))
        (copies (combine X failed) N).
  Proof.
    intros H1 H2 H3 H4 H5 E.
    apply (xlsx_to_XCN_meaning leb ord X C0 (Some N) ci fi co fo is_failure x); auto.
    - right. split; [discriminate|assumption].
    - split; [discriminate|]. now right.
  Qed.
End Q.

Lemma XCN_to_FR_exact {T} (X : list T) (C : list code) (N : list Z)
    (censor_code failure_code : option code) :
  (forall f r, XCN_to_FR X C (Some N) censor_code failure_code = Ok (mkFR f r) <->
     List.length X = List.length C /\ List.length X = List.length N /\
     at_most_two_codes C /\ Forall (fun n => (0 <= n)%Z) N /\
     exists failed, Forall2 (means failure_code censor_code) C failed /\
       f = map fst (filter (fun o => snd o) (copies (combine X failed) N)) /\
       r <> Some [] /\
       opt_list r = map fst (filter (fun o => negb (snd o)) (copies (combine X failed) N))) /\
  (forall e, XCN_to_FR X C (Some N) censor_code failure_code = Err e -> e = ValueError) /\
  XCN_to_FR X C None censor_code failure_code
  = XCN_to_FR X C (Some (map (fun _ => 1%Z) X)) censor_code failure_code.
Proof.
  split; [|split; [apply XCN_to_FR_err_value|reflexivity]].
  intros f r. split.
  - intros E. apply XCN_to_FR_sound in E as (H1 & H2 & H3 & H4 & fl & H5 & H6 & H7 & H8).
    simpl in *. repeat split; auto. exists fl. auto.
  - intros (H1 & H2 & H3 & H4 & fl & H5 & H6 & H7 & H8).
    destruct (XCN_to_FR_complete X C (Some N) censor_code failure_code fl) as ([f' r'] & E); auto.
    rewrite E. apply XCN_to_FR_sound in E as (_ & _ & _ & _ & fl' & F5 & F6 & F7 & F8).
    simpl in *.
    replace fl' with fl in * by (eapply Forall2_fun; [apply means_fun|exact H5|exact F5]).
    f_equal. f_equal; [congruence|].
    destruct r as [[|]|], r' as [[|]|]; simpl in *; congruence.
Qed.

Lemma xlsx_codes_swapped :
  exists (X : list nat) C N x,
    xlsx_to_XCN Nat.leb X C (Some N) None None (CNum 0) (CNum 1) = Ok x /\
    Forall2 (means None None) C [true; false] /\
    xcn_obs (fun c => code_eqb c (CNum 1)) (xcn_X x) (xcn_C x) (xcn_N x) =
      [(20, true); (10, false)] /\
    copies (combine X [true; false]) N = [(10, true); (20, false)].
Proof.
  exists [10; 20], [CStr "F"; CStr "C"], [1; 1]%Z. eexists.
  split; [vm_compute; reflexivity|]. split; [|split; reflexivity].
  constructor; [apply classify_means; reflexivity|].
  constructor; [apply classify_means; reflexivity|]. constructor.
Qed.
