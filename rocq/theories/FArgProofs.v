(** Lemmas for the arguments of the fitters and the table of quantiles. *)
From Coquelicot Require Import Coquelicot.
From Coq Require Import String.
From Coq Require Import List Arith Reals Lra Lia Bool.
From Verif Require Import Base RealFacts Ext RList Gauss ConvertModel NonparModel RepairModel DistModel DistSpec DistProofs DistProofs2 CIModel CISpec CIProofs CIProofs2 CIProps SelModel RegProofs ALTProofs
  InputModel InputProofs FArgModel FArgSpec.
Import ListNotations.
Open Scope R_scope.

(** ** Names *)
Ltac in_tac := cbn [In]; repeat (first [left; reflexivity | right]).
Ltac resolve_tac s :=
  split;
  [ intros H; repeat match type of H with (if ?b then _ else _) = _ => let B := fresh "B" in destruct b eqn:B;
        [apply str_in_In in B; injection H as <-; eexists; split; [|reflexivity]; cbn [In] in B;
         repeat match type of B with _ \/ _ => destruct B as [B|B] end; try contradiction; rewrite <- B; in_tac|] end; discriminate
  | intros (c & H & ->); cbn [In method_names optimizer_names CI_type_names] in H; repeat match type of H with _ \/ _ => destruct H as [H|H] end; try contradiction;
    (assert (upper s = fst (upper s, c)) as E by reflexivity; rewrite <- H in E; assert (c = snd (upper s, c)) as E2 by reflexivity; rewrite <- H in E2; cbn [fst snd] in E, E2; rewrite E, E2; reflexivity) ].
Lemma resolve_method_spec a r : resolve_method a = Ok r <-> understood method_names a r.
Proof.
  destruct a as [|s|]; cbn [resolve_method understood]; [split; congruence| |split; [discriminate|contradiction]]. resolve_tac s.
Qed.
Lemma resolve_optimizer_spec a r : resolve_optimizer a = Ok r <-> understood optimizer_names a r.
Proof.
  destruct a as [|s|]; cbn [resolve_optimizer understood]; [split; congruence| |split; [discriminate|contradiction]]. resolve_tac s.
Qed.
Lemma resolve_CI_type_spec a r : resolve_fit_CI_type a = Ok r <-> understood CI_type_names a r.
Proof.
  destruct a as [|s|]; cbn [resolve_fit_CI_type understood]; [split; congruence| |split; [discriminate|contradiction]]. resolve_tac s.
Qed.

(** ** Data *)
Lemma filter_sublist P (f : R -> bool) : (forall x, f x = true <-> P x) -> forall l m, filter f l = m <-> sublist_of P l m.
Proof.
  intros HP. induction l as [|x l IH]; intros m; cbn [filter].
  - split; [intros <-; constructor|]. intros H. inversion H. reflexivity.
  - destruct (f x) eqn:E.
    + split; [intros <-; constructor; [now apply HP|now apply IH]|]. intros H. inversion H as [|? ? m' Hx Hm|? ? ? Hx Hm]; subst; [f_equal; now apply IH|]. apply HP in E. contradiction.
    + split; [intros <-; constructor; [intros Q; apply HP in Q; congruence|now apply IH]|]. intros H. inversion H as [|? ? m' Hx Hm|? ? ? Hx Hm]; subst; [apply HP in Hx; congruence|]. now apply IH.
Qed.
Lemma nodup_firstn (l : list R) : NoDup l -> forall n, NoDup (firstn n l).
Proof.
  induction 1 as [|x l N ND IH]; intros [|n]; cbn; try constructor; [|apply IH]. intros H. apply N. rewrite <- (firstn_skipn n l). apply in_or_app. now left.
Qed.
Lemma distinct_count n l : distinct n l <-> (n <= unique_count l)%nat.
Proof.
  unfold unique_count, distinct. split.
  - intros (m & N & I & <-). apply NoDup_incl_length; [exact N|]. intros x Hx. apply nodup_In. now apply I.
  - intros H. exists (firstn n (nodup Req_EM_T l)). assert (NoDup (nodup Req_EM_T l)) as ND by apply NoDup_nodup.
    split; [apply nodup_firstn; exact ND|]. split.
    + intros x Hx. apply (nodup_In Req_EM_T). rewrite <- (firstn_skipn n (nodup Req_EM_T l)). apply in_or_app. now left.
    + apply firstn_length_le. exact H.
Qed.
Lemma needed_min d forced n : needed d (forced = true) n <-> n = min_failures d forced.
Proof.
  destruct d, forced; cbn; try reflexivity; split; intros H; try (split; intros; congruence); destruct H as [H1 H2]; try (now apply H1); apply H2; congruence.
Qed.
Lemma keep_bool d x : (match d with D_Normal_2P | D_Gumbel_2P => true | D_Beta_2P => Rneqb x 0 && Rneqb x 1 | _ => Rneqb x 0 end) = true <-> keep d x.
Proof.
  unfold keep, signed, Rneqb. destruct d; repeat destruct Req_EM_T; cbn; split; intros H; try reflexivity; try (left; tauto); try discriminate;
    try (right; split; [assumption|intros; congruence]); try (destruct H as [[H|H]|[H _]]; congruence);
    try (destruct H as [[H|H]|[H H2]]; [congruence|congruence|exfalso; now apply H2]).
Qed.
Lemma existsb_false_Forall {A} (f : A -> bool) (P : A -> Prop) l : (forall x, f x = false <-> P x) -> existsb f l = false <-> Forall P l.
Proof.
  intros H. induction l as [|x l IH]; cbn; [split; auto|]. rewrite orb_false_iff, IH, H. split; [intros [? ?]; now constructor|intros Q; inversion Q; auto].
Qed.
Definition usable (d : dname) (x : R) : bool := match d with D_Normal_2P | D_Gumbel_2P => true | D_Beta_2P => Rneqb x 0 && Rneqb x 1 | _ => Rneqb x 0 end.
Definition bad (d : dname) (t : R) : bool := match d with D_Normal_2P | D_Gumbel_2P => false | D_Beta_2P => Rltb' t 0 || Rltb' 1 t | _ => Rltb' t 0 end.
Lemma check_data_eq d forced f rc : check_data d forced f rc =
  if existsb (bad d) (f ++ rc) then Err ValueError
  else if (unique_count (filter (usable d) f) <? min_failures d forced)%nat then Err ValueError else Ok (filter (usable d) f, filter (usable d) rc).
Proof.
  assert (forall l, filter (fun t => Rneqb t 1) (filter (fun t => Rneqb t 0) l) = filter (fun t => Rneqb t 0 && Rneqb t 1) l) as FF by (intros; apply filter_filter).
  assert (forall l, filter (fun _ : R => true) l = l) as FT by (induction l as [|x l IH]; cbn; [reflexivity|now rewrite IH]).
  assert (forall l, existsb (fun _ : R => false) l = false) as EF by (induction l as [|x l IH]; cbn; auto).
  assert (forall l, existsb (fun t => Rltb' t 0 || Rltb' 1 t) l = existsb (fun t => Rltb' t 0) l || existsb (fun t => Rltb' 1 t) l) as EO.
  { induction l as [|x l IH]; cbn; [reflexivity|]. rewrite IH. destruct (Rltb' x 0), (Rltb' 1 x), (existsb (fun t => Rltb' t 0) l); reflexivity. }
  assert ((unique_count [] <? min_failures d forced)%nat = true) as HM by (destruct d, forced; reflexivity).
  unfold check_data, bad, usable. destruct d; cbn [dname_eqb andb bind fst]; rewrite ?FT, ?EF, ?EO; try reflexivity;
  (destruct (length (f ++ rc) =? 0)%nat eqn:L;
    [apply Nat.eqb_eq, length_zero_iff_nil, app_eq_nil in L; destruct L as [-> ->]; cbn [filter bind app existsb orb fst]; now rewrite HM|];
   destruct (existsb (fun t => Rltb' t 0) (f ++ rc)); cbn [orb bind fst]; [reflexivity|];
   try (destruct (existsb (fun t => Rltb' 1 t) (f ++ rc)); cbn [orb bind fst]; [reflexivity|]); rewrite ?FF; reflexivity).
Qed.
Lemma check_data_spec d forced f rc f' rc' : check_data d forced f rc = Ok (f', rc') <->
  Forall (FArgSpec.in_range d) (f ++ rc) /\ sublist_of (keep d) f f' /\ sublist_of (keep d) rc rc' /\ exists n, needed d (forced = true) n /\ distinct n f'.
Proof.
  rewrite <- !(filter_sublist _ (usable d) (keep_bool d)).
  assert (forall x, bad d x = false <-> FArgSpec.in_range d x) as HB.
  { intros x. unfold bad, FArgSpec.in_range, signed, Rltb'. destruct d; repeat destruct Rlt_dec; cbn; split; intros H; try reflexivity; try (left; tauto); try discriminate;
      try (right; split; [lra|intros; congruence || lra]); try (destruct H as [[H|H]|[H H2]]; [congruence|congruence|try lra; specialize (H2 eq_refl); lra]). }
  rewrite <- (existsb_false_Forall (bad d) _ _ HB).
  assert ((exists n, needed d (forced = true) n /\ distinct n f') <-> (unique_count f' <? min_failures d forced)%nat = false) as HN.
  { rewrite Nat.ltb_ge. split; [intros (n & A & B); apply needed_min in A; subst; now apply distinct_count|]. intros H. exists (min_failures d forced). split; [now apply needed_min|now apply distinct_count]. }
  rewrite HN, check_data_eq. destruct (existsb (bad d) (f ++ rc)); [split; [discriminate|intros (H & _); discriminate H]|].
  split.
  - intros H. destruct (unique_count (filter (usable d) f) <? min_failures d forced)%nat eqn:U; [discriminate|]. injection H as <- <-. auto.
  - intros (_ & <- & <- & ->). reflexivity.
Qed.

(** ** Quantiles *)
Lemma resolve_quantiles_spec q r : resolve_quantiles q = Ok r <->
  (asks_default q /\ r = Q_seq default_quantiles) \/ (~ asks_default q /\ r = q /\ q <> Q_other /\ forall l, q = Q_seq l -> asks_values q l).
Proof.
  unfold asks_default, asks_values. destruct q as [|[|]|s|l|]; cbn [resolve_quantiles].
  - split; [intros H; injection H as <-; right|intros [[H _]|(_ & -> & _)]; [|reflexivity]].
    + split; [intros [Q|[Q|[Q|Q]]]; discriminate|]. split; [reflexivity|]. split; [discriminate|]. discriminate.
    + destruct H as [H|[H|[H|H]]]; discriminate.
  - split; [intros H; injection H as <-; left; auto|]. intros [[_ ->]|(H & _)]; [reflexivity|]. exfalso. apply H. now left.
  - split; [intros H; injection H as <-; right|intros [[H _]|(_ & -> & _)]; [|reflexivity]].
    + split; [intros [Q|[Q|[Q|Q]]]; discriminate|]. split; [reflexivity|]. split; [discriminate|]. discriminate.
    + destruct H as [H|[H|[H|H]]]; discriminate.
  - destruct (str_in s _) eqn:B.
    + apply str_in_In in B. cbn [In] in B. split; [intros H; injection H as <-; left|intros [[_ ->]|(H & _)]; [reflexivity|exfalso; apply H]];
        destruct B as [<-|[<-|[<-|[]]]]; auto.
    + assert (~ (s = "auto" \/ s = "default" \/ s = "on")%string) as NB.
      { intros H. assert (str_in s ["auto"; "default"; "on"]%string = true) by (apply str_in_In; cbn; intuition congruence). congruence. }
      split; [intros H; injection H as <-; right|intros [[H _]|(_ & -> & _)]; [|reflexivity]].
      * split; [intros [Q|[Q|[Q|Q]]]; try discriminate; injection Q as ->; apply NB; auto|]. split; [reflexivity|]. split; [discriminate|]. discriminate.
      * exfalso. destruct H as [H|[H|[H|H]]]; try discriminate; injection H as ->; apply NB; auto.
  - assert (~ (Q_seq l = Q_bool true \/ Q_seq l = Q_str "auto" \/ Q_seq l = Q_str "default" \/ Q_seq l = Q_str "on")) as ND by (intros [Q|[Q|[Q|Q]]]; discriminate).
    assert (match l with [] => Err ValueError | _ :: _ => if existsb (fun v => le 1 v) l || existsb (fun v => le v 0) l then Err ValueError else Ok (Q_seq l) end = Ok r <->
            r = Q_seq l /\ l <> [] /\ Forall (fun v => 0 < v < 1) l) as E.
    { assert (existsb (fun v => le 1 v) l || existsb (fun v => le v 0) l = false <-> Forall (fun v => 0 < v < 1) l) as EB.
      { rewrite orb_false_iff, (existsb_false_Forall _ (fun v => v < 1)), (existsb_false_Forall _ (fun v => 0 < v)) by (intros; rewrite le_false; tauto).
        rewrite !Forall_forall. split; [intros [A B] x Hx; split; auto|intros A; split; intros x Hx; apply A; exact Hx]. }
      destruct l as [|x l]; [split; [discriminate|intros (_ & H & _); congruence]|]. destruct (_ || _) eqn:B.
      - split; [discriminate|]. intros (_ & _ & H). apply EB in H. congruence.
      - split; [intros H; injection H as <-; split; [reflexivity|]; split; [discriminate|now apply EB]|]. now intros (-> & _). }
    rewrite E. split.
    + intros (-> & A & B). right. split; [exact ND|]. split; [reflexivity|]. split; [discriminate|]. intros m Hm. injection Hm as <-. auto.
    + intros [[H _]|(_ & -> & _ & H)]; [contradiction|]. destruct (H l eq_refl) as (_ & A & B). auto.
  - split; [discriminate|]. intros [[[H|[H|[H|H]]] _]|(_ & _ & H & _)]; try discriminate. congruence.
Qed.
Lemma check_force_spec o r : check_force o = Ok r <-> r = o /\ forall v, o = Some v -> 0 < v.
Proof.
  destruct o as [v|]; cbn; [|split; [intros H; injection H as <-; split; [reflexivity|discriminate]|now intros [-> _]]].
  destruct (le v 0) eqn:B; [apply le_spec in B|apply le_false in B].
  - split; [discriminate|]. intros [_ H]. specialize (H v eq_refl). lra.
  - split; [intros H; injection H as <-; split; [reflexivity|]; intros w Hw; now injection Hw as <-|now intros [-> _]].
Qed.
