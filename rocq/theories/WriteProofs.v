(** Proofs about writing spreadsheets. *)
From Coq Require Import String Ascii.
From Coq Require Import List Arith Bool Lia.
From Verif Require Import Base ConvertModel WriteModel WriteSpec.
Import ListNotations.
Open Scope list_scope.

Notation cnt c p := (count_occ ascii_dec p c).
Lemma cnt_cons c x p : cnt c (x :: p) = (if ascii_dec x c then 1 else 0) + cnt c p.
Proof. cbn [count_occ]. destruct (ascii_dec x c); reflexivity. Qed.
Lemma split_last_app sep p : fst (split_last sep p) ++ snd (split_last sep p) = p.
Proof. induction p as [|c p IH]; [reflexivity|]. cbn [split_last]. destruct (split_last sep p) as [h t]. cbn [fst snd] in IH. destruct h as [|x h]; [|cbn; now f_equal]. cbn in IH. subst t. destruct (sep c); reflexivity. Qed.
Lemma strip_front_cnt sep c p : sep c = false -> cnt c (strip_front sep p) = cnt c p.
Proof. intros H. induction p as [|x p IH]; [reflexivity|]. cbn [strip_front]. destruct (sep x) eqn:E; [|reflexivity]. rewrite IH, cnt_cons. destruct (ascii_dec x c); [congruence|reflexivity]. Qed.
Lemma cnt_rev c p : cnt c (rev p) = cnt c p.
Proof. induction p as [|x p IH]; [reflexivity|]. cbn [rev]. rewrite count_occ_app, IH, !cnt_cons. cbn [count_occ]. destruct (ascii_dec x c); lia. Qed.
Lemma rstrip_cnt sep c p : sep c = false -> cnt c (rstrip sep p) = cnt c p.
Proof. intros H. unfold rstrip. rewrite cnt_rev, strip_front_cnt by assumption. apply cnt_rev. Qed.
(** The pieces of a path have its characters, but for separators. *)
Lemma split_cnt os c p : is_sep c = false -> cnt c (fst (os_path_split os p)) + cnt c (snd (os_path_split os p)) = cnt c p.
Proof.
  intros H. assert (is_slash c = false) as HS by (unfold is_sep in H; now apply orb_false_elim in H). destruct os; cbn [os_path_split].
  - unfold posix_split. pose proof (split_last_app is_slash p) as E. destruct (split_last is_slash p) as [h t]. cbn [fst snd] in *.
    rewrite <- E, count_occ_app. destruct (forallb is_slash h); [reflexivity|]. now rewrite rstrip_cnt.
  - unfold nt_split. assert (fst (nt_drive p) ++ snd (nt_drive p) = p) as E1 by (unfold nt_drive; destruct p as [|a [|b r]]; try reflexivity; destruct (_ && _); reflexivity). destruct (nt_drive p) as [d r]. cbn [fst snd] in E1.
    pose proof (split_last_app is_sep r) as E. destruct (split_last is_sep r) as [h t]. cbn [fst snd] in *. rewrite <- E1, <- E, !count_occ_app, <- Nat.add_assoc. f_equal. f_equal.
    rewrite <- (rstrip_cnt is_sep c h H). destruct (rstrip is_sep h) as [|x l] eqn:ER; [|reflexivity]. rewrite <- (rstrip_cnt is_sep c h H). now rewrite ER.
Qed.
Lemma split_dots_nonempty p : split_dots p <> [].
Proof. destruct p as [|c p]; [discriminate|]. cbn [split_dots]. destruct (split_dots p); [discriminate|]. destruct (Ascii.eqb c dot); discriminate. Qed.
Lemma split_dots_length p : length (split_dots p) = S (cnt dot p).
Proof.
  induction p as [|c p IH]; [reflexivity|]. cbn [split_dots]. rewrite cnt_cons. destruct (split_dots p) as [|x l]; [discriminate IH|]. cbn [length] in IH. destruct (Ascii.eqb_spec c dot) as [->|Hn]; cbn [length].
  - destruct (ascii_dec dot dot); [lia|congruence].
  - destruct (ascii_dec c dot); [congruence|lia].
Qed.
Lemma split_dots_cnt c p : c <> dot -> list_sum (map (fun x => cnt c x) (split_dots p)) = cnt c p.
Proof.
  intros H. induction p as [|x p IH]; [reflexivity|]. cbn [split_dots]. pose proof (split_dots_nonempty p). destruct (split_dots p) as [|y l]; [congruence|].
  rewrite cnt_cons. destruct (Ascii.eqb_spec x dot) as [->|Hn].
  - cbn [map list_sum fold_right count_occ]. cbn [map list_sum fold_right] in IH. destruct (ascii_dec dot c); [congruence|]. exact IH.
  - change (map (fun x => cnt c x) ((x :: y) :: l)) with (cnt c (x :: y) :: map (fun x => cnt c x) l). rewrite cnt_cons. cbn [map list_sum fold_right] in *. unfold list_sum in *. lia.
Qed.
Lemma split_dots_free p : Forall no_dot (split_dots p).
Proof.
  induction p as [|x p IH]; [constructor; [intros []|constructor]|]. cbn [split_dots]. destruct (split_dots p) as [|y l]; [constructor; [intros []|constructor]|]. inversion IH; subst.
  destruct (Ascii.eqb_spec x dot) as [->|Hn]; [constructor; [intros []|assumption]|]. constructor; [|assumption]. intros [E|E]; [congruence|contradiction].
Qed.
Definition paren : ascii := "(".
(** A new name has fewer dots, or as many and more parentheses. *)
Lemma new_path_progress os p q : new_path os p = Ok q -> 1 <= cnt dot q /\ (cnt dot q < cnt dot p \/ (cnt dot q = cnt dot p /\ cnt paren p < cnt paren q)).
Proof.
  unfold new_path. intros H. pose proof (split_cnt os dot p eq_refl) as ED. pose proof (split_cnt os paren p eq_refl) as EP. destruct (os_path_split os p) as [h t]. cbn [fst snd] in *.
  pose proof (split_dots_length t) as HL. pose proof (split_dots_cnt paren t ltac:(discriminate)) as HC. pose proof (split_dots_free t) as HF.
  destruct (split_dots t) as [|y0 [|y1 l]]; try discriminate H. assert (q = h ++ [backslash] ++ y0 ++ new_suffix ++ [dot] ++ y1) as -> by congruence. clear H.
  inversion HF as [|? ? F0 HF']; subst. inversion HF' as [|? ? F1 HF'']; subst. unfold no_dot in F0, F1. apply (count_occ_not_In ascii_dec) in F0, F1.
  assert (cnt dot (h ++ [backslash] ++ y0 ++ new_suffix ++ [dot] ++ y1) = cnt dot h + 1) as -> by (rewrite !count_occ_app; cbn [count_occ]; rewrite F0, F1; vm_compute (cnt dot new_suffix); destruct (ascii_dec backslash dot); [discriminate|]; destruct (ascii_dec dot dot); [lia|congruence]).
  assert (cnt paren (h ++ [backslash] ++ y0 ++ new_suffix ++ [dot] ++ y1) = cnt paren h + cnt paren y0 + 1 + cnt paren y1) as -> by (rewrite !count_occ_app; cbn [count_occ]; vm_compute (cnt paren new_suffix); destruct (ascii_dec backslash paren); [discriminate|]; destruct (ascii_dec dot paren); [discriminate|lia]).
  split; [lia|]. cbn [length map list_sum fold_right] in HL, HC. destruct l as [|z l]; [right|left]; cbn [length map fold_right] in HL, HC; lia.
Qed.

(** Answers *)
Lemma upper_ascii_preimage c d : upper_ascii c = d -> (65 <= nat_of_ascii d <= 90) -> c = d \/ c = ascii_of_nat (nat_of_ascii d + 32).
Proof.
  unfold upper_ascii. intros H Hd. cbv zeta in H. destruct ((97 <=? nat_of_ascii c) && (nat_of_ascii c <=? 122)) eqn:E; [|left; exact H]. right. apply andb_prop in E. destruct E as [E1 E2]. apply Nat.leb_le in E1, E2.
  rewrite <- H. rewrite nat_ascii_embedding by lia. replace (nat_of_ascii c - 32 + 32) with (nat_of_ascii c) by lia. symmetry. apply ascii_nat_embedding.
Qed.
Lemma upper_single s d : upper s = String d "" -> exists c, s = String c "" /\ upper_ascii c = d.
Proof. destruct s as [|c [|c2 s]]; cbn [upper]; intros H; try discriminate H. exists c. split; [reflexivity|congruence]. Qed.
Lemma yes_iff s : String.eqb (upper s) "Y" = true <-> says_yes s.
Proof.
  split; [|intros [-> | ->]; reflexivity]. intros H. apply String.eqb_eq in H. destruct (upper_single _ _ H) as (c & -> & E). destruct (upper_ascii_preimage c _ E) as [-> | ->]; [cbn; lia|left; reflexivity|right; reflexivity].
Qed.
Lemma no_iff s : String.eqb (upper s) "N" = true <-> says_no s.
Proof.
  split; [|intros [-> | ->]; reflexivity]. intros H. apply String.eqb_eq in H. destruct (upper_single _ _ H) as (c & -> & E). destruct (upper_ascii_preimage c _ E) as [-> | ->]; [cbn; lia|left; reflexivity|right; reflexivity].
Qed.
Lemma yes_not_no s : says_yes s -> says_no s -> False.
Proof. intros [-> | ->] [E|E]; discriminate E. Qed.

Section Write.
  Context {sheet : Type}.
  Implicit Types fs : @fsys sheet.
  Lemma can_open_iff fs p : can_open fs p = true <-> readable_file fs p.
  Proof. unfold can_open, readable_file. destruct (fs p) as [f|]; [|split; [discriminate|intros (f & E & _); discriminate E]]. split; [intros H; exists f; auto|intros (g & E & H); congruence]. Qed.
  Lemma more_fuel os fs answers fuel first asked p r : choose_path os fs answers fuel first asked p = Some r -> forall fuel', fuel <= fuel' -> choose_path os fs answers fuel' first asked p = Some r.
  Proof.
    revert first asked p. induction fuel as [|fuel IH]; intros first asked p H fuel' Hf; [discriminate H|]. destruct fuel' as [|fuel']; [lia|]. cbn [choose_path] in *. destruct (can_open fs p); [|exact H].
    destruct (String.eqb (upper (if first then answers asked else "N"%string)) "N").
    - destruct (new_path os p) as [q|e]; [|exact H]. apply IH; [exact H|lia].
    - destruct (String.eqb (upper (if first then answers asked else "N"%string)) "Y"); [exact H|]. apply IH; [exact H|lia].
  Qed.
  (** After a refusal: no more questions, and the path chosen is that of no file that can be read. *)
  Lemma renamed os fs answers fuel asked p r : choose_path os fs answers fuel false asked p = Some r ->
    match r with Ok (q, n) => n = asked /\ ~ readable_file fs q | Err e => e = IndexError end.
  Proof.
    revert p. induction fuel as [|fuel IH]; intros p H; [discriminate H|]. cbn [choose_path] in H. destruct (can_open fs p) eqn:E.
    - change (String.eqb (upper "N") "N") with true in H. cbv iota in H. destruct (new_path os p) as [q|e] eqn:EN; [exact (IH _ H)|]. assert (r = Err e) as -> by congruence. unfold new_path in EN. destruct (split_dots _) as [|? [|? ?]]; congruence.
    - assert (r = Ok (p, asked)) as -> by congruence. split; [reflexivity|]. rewrite <- can_open_iff. congruence.
  Qed.
  Lemma chosen os fs answers fuel asked p r : (forall i, i < asked -> neither (answers i)) -> choose_path os fs answers fuel true asked p = Some r ->
    match r with
    | Err e => e = IndexError /\ readable_file fs p /\ exists m, first_no answers m
    | Ok (q, n) => (~ readable_file fs p /\ q = p /\ n = asked) \/
        (readable_file fs p /\ exists m, n = S m /\ ((q = p /\ first_yes answers m) \/ (first_no answers m /\ ~ readable_file fs q)))
    end.
  Proof.
    revert asked. induction fuel as [|fuel IH]; intros asked HA H; [discriminate H|]. cbn [choose_path] in H. destruct (can_open fs p) eqn:E; [|assert (r = Ok (p, asked)) as -> by congruence; left; rewrite <- can_open_iff, E; split; [discriminate|auto]].
    apply can_open_iff in E. destruct (String.eqb (upper (answers asked)) "N") eqn:EN.
    - apply no_iff in EN. destruct (new_path os p) as [q|e] eqn:EP.
      + apply renamed in H. destruct r as [[q' n]|e]; [|split; [exact H|split; [exact E|exists asked; split; assumption]]]. destruct H as [-> H]. right. split; [exact E|]. exists asked. split; [reflexivity|]. right. split; [split; assumption|exact H].
      + assert (r = Err e) as -> by congruence. unfold new_path in EP. split; [destruct (split_dots _) as [|? [|? ?]]; congruence|]. split; [exact E|]. exists asked. split; assumption.
    - destruct (String.eqb (upper (answers asked)) "Y") eqn:EY.
      + apply yes_iff in EY. assert (r = Ok (p, S asked)) as -> by congruence. right. split; [exact E|]. exists asked. split; [reflexivity|]. left. split; [reflexivity|split; assumption].
      + assert (forall i, i < S asked -> neither (answers i)) as HA'.
        { intros i Hi. destruct (Nat.eq_dec i asked) as [->|]; [|apply HA; lia]. split; [rewrite <- yes_iff|rewrite <- no_iff]; congruence. }
        pose proof (IH (S asked) HA' H) as G. destruct r as [[q n]|e]; [|exact G]. destruct G as [(G & _)|G]; [contradiction|now right].
  Qed.
  (** Renaming ends. *)
  Lemma renaming_ends os fs answers asked p : finite_files fs -> exists fuel r, choose_path os fs answers fuel false asked p = Some r.
  Proof.
    intros (l & Hl). set (M := list_sum (map (fun p => cnt paren p) l)).
    assert (forall p, can_open fs p = true -> cnt paren p <= M) as HM.
    { intros q Hq. assert (In q l) as Hi by (apply Hl; unfold can_open in Hq; destruct (fs q); [discriminate|discriminate Hq]). unfold M. clear - Hi. induction l as [|x l IH]; [destruct Hi|]. cbn [map list_sum fold_right]. destruct Hi as [-> |Hi]; [lia|]. specialize (IH Hi). unfold list_sum in IH. lia. }
    enough (forall d k p, cnt dot p <= d -> M + 1 - cnt paren p <= k -> exists fuel r, choose_path os fs answers fuel false asked p = Some r) as G by (eapply G; apply le_n).
    clear p. induction d as [|d IHd]; intros k; induction k as [|k IHk]; intros p Hd Hk.
    - exists 1. cbn [choose_path]. destruct (can_open fs p) eqn:E; [|eexists; reflexivity]. specialize (HM _ E). lia.
    - exists 1. cbn [choose_path]. destruct (can_open fs p) eqn:E; [|eexists; reflexivity]. cbn [choose_path String.eqb]. destruct (new_path os p) as [q|e] eqn:EN; [|eexists; reflexivity]. destruct (new_path_progress _ _ _ EN) as [H1 [H2|[H2 _]]]; lia.
    - exists 1. cbn [choose_path]. destruct (can_open fs p) eqn:E; [|eexists; reflexivity]. specialize (HM _ E). lia.
    - destruct (can_open fs p) eqn:E; [|exists 1; cbn [choose_path]; rewrite E; eexists; reflexivity].
      destruct (new_path os p) as [q|e] eqn:EN; [|exists 1; cbn [choose_path]; rewrite E, EN; eexists; reflexivity].
      assert (exists fuel r, choose_path os fs answers fuel false asked q = Some r) as (fuel & r & G).
      { destruct (new_path_progress _ _ _ EN) as [H1 [H2|[H2 H3]]]; [eapply IHd; [lia|apply le_n]|apply IHk; lia]. }
      exists (S fuel), r. cbn [choose_path]. rewrite E, EN. exact G.
  Qed.
  Lemma asking_ends os fs answers p m : finite_files fs -> (first_yes answers m \/ first_no answers m) -> exists fuel r, choose_path os fs answers fuel true 0 p = Some r.
  Proof.
    intros HF HA. assert (forall k asked, asked + k = m -> exists fuel r, choose_path os fs answers fuel true asked p = Some r) as G; [|exact (G m 0 eq_refl)].
    induction k as [|k IH]; intros asked E; (destruct (can_open fs p) eqn:EO; [|exists 1; cbn [choose_path]; rewrite EO; eexists; reflexivity]).
    - rewrite Nat.add_0_r in E. subst asked. destruct HA as [[HA _]|[HA _]].
      + exists 1. cbn [choose_path]. rewrite EO. assert (String.eqb (upper (answers m)) "N" = false) as -> by (apply not_true_iff_false; rewrite no_iff; exact (yes_not_no _ HA)). apply yes_iff in HA. rewrite HA. eexists. reflexivity.
      + apply no_iff in HA. destruct (new_path os p) as [q|e] eqn:EN; [|exists 1; cbn [choose_path]; rewrite EO, HA, EN; eexists; reflexivity].
        destruct (renaming_ends os fs answers (S m) q HF) as (fuel & r & G). exists (S fuel), r. cbn [choose_path]. rewrite EO, HA, EN. exact G.
    - assert (neither (answers asked)) as [N1 N2] by (destruct HA as [[_ HA]|[_ HA]]; apply HA; lia). rewrite <- yes_iff in N1. rewrite <- no_iff in N2. apply not_true_is_false in N1, N2.
      destruct (IH (S asked) ltac:(lia)) as (fuel & r & G). exists (S fuel), r. cbn [choose_path]. rewrite EO, N2, N1. exact G.
  Qed.
End Write.
