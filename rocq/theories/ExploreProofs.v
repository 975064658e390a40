From Coq Require Import Reals Lra Lia.
From Coq Require Import String.
From Coq Require Import List Bool Arith.
From Verif Require Import Base Ext DistModel InputModel AxesModel RoundModel ExploreModel ExploreSpec.
Import ListNotations.
Open Scope R_scope.

Lemma clip_in lo hi v : lo <= hi -> lo <= clip lo hi v <= hi.
Proof. intros H. unfold clip. destruct (Rle_dec v lo); [lra|]. destruct (Rle_dec hi v); lra. Qed.
Lemma clip_id lo hi v : lo <= v <= hi -> clip lo hi v = v.
Proof. intros H. unfold clip. destruct (Rle_dec v lo); [lra|]. destruct (Rle_dec hi v); lra. Qed.

(** The state between events. *)
Definition in_range (s : slider) : Prop := l_lo s <= l_val s <= l_hi s.
Definition shape_of (name : string) (e : explorer) : Prop :=
  exists t0 t1 t2, sliders_of name = Ok (t0, t1, t2) /\
    (l_label (e_s0 e), l_lo (e_s0 e), l_hi (e_s0 e)) = (l_label t0, l_lo t0, l_hi t0) /\
    (l_label (e_s1 e), l_lo (e_s1 e), l_hi (e_s1 e)) = (l_label t1, l_lo t1, l_hi t1) /\
    e_ax2 e = match t2 with Some _ => true | None => false end /\
    match t2 with Some t => (l_label (e_s2 e), l_lo (e_s2 e), l_hi (e_s2 e)) = (l_label t, l_lo t, l_hi t) | None => True end.
Record good (e : explorer) : Prop := {
  g_name : In (e_name e) buttons;
  g_shape : shape_of (e_name e) e;
  g_r0 : in_range (e_s0 e); g_r1 : in_range (e_s1 e); g_r2 : in_range (e_s2 e);
  g_c0 : l_calls (e_s0 e) = 1%nat; g_c1 : l_calls (e_s1 e) = 1%nat; g_c2 : (1 <= l_calls (e_s2 e))%nat;
  g_c2' : e_ax2 e = true -> l_calls (e_s2 e) = 1%nat;
  g_drawn : update_params e = Ok e }.

Lemma update_twice e e1 : update_params e = Ok e1 -> update_params e1 = Ok e1.
Proof.
  unfold update_params. destruct (dist_of _ _ _ _) as [d|x] eqn:D; cbn [bind]; [|discriminate]. intros H. injection H as <-.
  cbn [e_name e_s0 e_s1 e_s2 e_ax2]. rewrite D. reflexivity.
Qed.
Lemma repeat_once n e : (1 <= n)%nat -> repeat_update n e = update_params e.
Proof.
  intros H. destruct n as [|n]; [lia|]. clear H. cbn [repeat_update]. destruct (update_params e) as [e1|x] eqn:E; [|reflexivity].
  cbn [bind]. apply update_twice in E. induction n as [|n IH]; [reflexivity|]. cbn [repeat_update]. now rewrite E.
Qed.
Ltac buttons H := cbn [buttons In] in H; repeat destruct H as [H|H]; [..|contradiction].
Lemma sliders_known name : In name buttons -> exists t, sliders_of name = Ok t.
Proof. intros H. buttons H; subst name; eexists; reflexivity. Qed.
Lemma dist_known name a b c : In name buttons -> exists d, dist_of name a b c = Ok d.
Proof. intros H. buttons H; subst name; eexists; reflexivity. Qed.
Lemma update_good e : In (e_name e) buttons -> exists d, dist_of (e_name e) (l_val (e_s0 e)) (l_val (e_s1 e)) (l_val (e_s2 e)) = Ok d /\
  update_params e = Ok (mkExp (e_name e) (e_s0 e) (e_s1 e) (e_s2 e) (e_ax2 e) [(F_pdf, d)] [(F_cdf, d)] [(F_sf, d)] [(F_hf, d)] [(F_chf, d)] (title_long d)).
Proof.
  intros H. destruct (dist_known (e_name e) (l_val (e_s0 e)) (l_val (e_s1 e)) (l_val (e_s2 e)) H) as [d E].
  exists d. split; [exact E|]. unfold update_params. rewrite E. reflexivity.
Qed.
Lemma new_in_range l lo hi v : lo <= hi -> in_range (new_slider l lo hi v).
Proof. intros H. unfold in_range, new_slider. cbn. now apply clip_in. Qed.
Lemma sliders_facts name t0 t1 t2 : sliders_of name = Ok (t0, t1, t2) ->
  in_range t0 /\ in_range t1 /\ l_calls t0 = 0%nat /\ l_calls t1 = 0%nat /\
  match t2 with Some t => in_range t /\ l_calls t = 0%nat | None => True end.
Proof.
  unfold sliders_of. repeat (destruct (String.eqb name _);
    [intros H; injection H as <- <- <-; repeat split; cbn; try apply clip_in; try lra; try (apply clip_in; lra)|]).
  discriminate.
Qed.

Lemma start_good : good start.
Proof.
  constructor; cbn; try reflexivity; try lia; auto.
  - eexists _, _, _. repeat split; reflexivity.
  - unfold in_range. cbn. apply clip_in. lra.
  - unfold in_range. cbn. apply clip_in. lra.
  - unfold in_range. cbn. apply clip_in. lra.
  - unfold update_params. cbn. rewrite !clip_id by lra. reflexivity.
Qed.
Lemma click_good e name : good e -> In name buttons -> exists e1, update_distribution name e = Ok e1 /\ good e1 /\ e_name e1 = name.
Proof.
  intros G B. destruct (sliders_known name B) as [[[t0 t1] t2] E]. unfold update_distribution. rewrite E. cbn [bind].
  destruct (sliders_facts name t0 t1 t2 E) as [R0 [R1 [C0 [C1 R2]]]].
  set (e1 := mkExp name _ _ _ _ _ _ _ _ _ _). destruct (update_good e1 B) as [d [D U]]. rewrite U. cbn [bind].
  eexists. split; [reflexivity|]. split; [|reflexivity]. subst e1. cbn [e_name e_s0 e_s1 e_s2 e_ax2] in *.
  constructor; cbn [interactive connect e_name e_s0 e_s1 e_s2 e_ax2 l_calls in_range l_lo l_hi l_val l_label].
  - exact B.
  - exists t0, t1, t2. repeat split; [exact E|]. now destruct t2.
  - exact R0.
  - exact R1.
  - destruct t2; [apply R2|apply (g_r2 e G)].
  - now rewrite C0.
  - now rewrite C1.
  - lia.
  - destruct t2; [|discriminate]. destruct R2 as [_ ->]. reflexivity.
  - unfold update_params, interactive, connect. cbn [e_name e_s0 e_s1 e_s2 e_ax2 l_val]. rewrite D. reflexivity.
Qed.
Lemma react_good e ev : good e -> exists e1, react e ev = Ok e1 /\ good e1.
Proof.
  intros G. destruct ev as [i|i v|].
  - cbn [react]. destruct (nth_error buttons i) as [name|] eqn:E; [|now exists e].
    destruct (click_good e name G (nth_error_In _ _ E)) as [e1 [U [G1 _]]]. now exists e1.
  - assert (forall e', e_name e' = e_name e -> shape_of (e_name e) e' -> in_range (e_s0 e') -> in_range (e_s1 e') -> in_range (e_s2 e') ->
      l_calls (e_s0 e') = 1%nat -> l_calls (e_s1 e') = 1%nat -> (1 <= l_calls (e_s2 e'))%nat -> (e_ax2 e' = true -> l_calls (e_s2 e') = 1%nat) ->
      forall n, (1 <= n)%nat -> exists e1, repeat_update n e' = Ok e1 /\ good e1) as A.
    { intros e' N Sh R0 R1 R2 C0 C1 C2 C2' n Hn. rewrite repeat_once by exact Hn.
      assert (In (e_name e') buttons) as B by (rewrite N; apply (g_name e G)).
      destruct (update_good e' B) as [d [D U]]. rewrite U. eexists. split; [reflexivity|].
      constructor; cbn [e_name e_s0 e_s1 e_s2 e_ax2]; try assumption.
      rewrite N. destruct Sh as [t0 [t1 [t2 H]]]. exists t0, t1, t2. exact H. }
    pose proof (g_shape e G) as [t0 [t1 [t2 [T1 [T2 [T3 [T4 T5]]]]]]].
    assert (forall s, in_range s -> in_range (set_val s v)) as C.
    { intros s H. unfold in_range, set_val in *. cbn. apply clip_in. lra. }
    destruct i as [|[|[|i]]]; cbn [react].
    + apply A; cbn [e_name e_s0 e_s1 e_s2 e_ax2 set_val l_calls]; try reflexivity; try apply G; try (rewrite (g_c0 e G); lia); apply C; apply G.
    + apply A; cbn [e_name e_s0 e_s1 e_s2 e_ax2 set_val l_calls]; try reflexivity; try apply G; try (rewrite (g_c1 e G); lia); apply C; apply G.
    + destruct (e_ax2 e) eqn:V; [|now exists e].
      apply A; cbn [e_name e_s0 e_s1 e_s2 e_ax2 set_val l_calls]; try reflexivity; try apply G; try (apply C; apply G);
        [|intros _; now apply (g_c2' e G)]. exists t0, t1, t2. now repeat split.
    + now exists e.
  - cbn [react]. exists e. split; [apply (g_drawn e G)|exact G].
Qed.
Lemma run_good e h : good e -> exists e1, run e h = Ok e1 /\ good e1.
Proof.
  revert e. induction h as [|ev r IH]; intros e G; cbn [run]; [now exists e|].
  destruct (react_good e ev G) as [e1 [E G1]]. rewrite E. cbn [bind]. now apply IH.
Qed.
Lemma run_app e h1 h2 : run e (h1 ++ h2) = let! e1 := run e h1 in run e1 h2.
Proof.
  revert e. induction h1 as [|ev r IH]; intros e; cbn [app run bind]; [reflexivity|].
  destruct (react e ev) as [e1|x]; cbn [bind]; [apply IH|reflexivity].
Qed.
Lemma good_shows e : good e -> exists d, shows e d /\ valid d /\
  v_ranges (look e) = ranges d /\ Forall2 (fun v r => fst r <= snd v <= snd r) (dials e) (v_ranges (look e)).
Proof.
  intros G. pose proof (g_drawn e G) as U. destruct (update_good e (g_name e G)) as [d [D U']]. rewrite U' in U.
  assert (forall a b : explorer, Ok a = Ok b -> a = b) as J by (intros a b H; now inversion H). apply J in U.
  exists d. pose proof (g_shape e G) as [t0 [t1 [t2 [T1 [T2 [T3 [T4 T5]]]]]]].
  pose proof (g_r0 e G) as R0. pose proof (g_r1 e G) as R1. pose proof (g_r2 e G) as R2. pose proof (g_name e G) as B.
  unfold in_range in R0, R1, R2.
  assert (e_pdf e = [(F_pdf, d)] /\ e_cdf e = [(F_cdf, d)] /\ e_sf e = [(F_sf, d)] /\ e_hf e = [(F_hf, d)] /\ e_chf e = [(F_chf, d)] /\ e_title e = title_long d) as P.
  { rewrite <- U. cbn. tauto. }
  destruct P as [P1 [P2 [P3 [P4 [P5 P6]]]]]. unfold shows, panels. rewrite P1, P2, P3, P4, P5, P6. clear P1 P2 P3 P4 P5 P6 U U' J.
  split.
  - unfold dials, title_long. injection T2 as L0 _ _. injection T3 as L1 _ _.
    buttons B; rewrite <- B in T1, D |- *; cbn in T1, D; injection T1 as <- <- <-; injection D as <-;
      rewrite T4; cbn [app map]; rewrite L0, L1; cbn [new_slider l_label];
      try (injection T5 as L2 _ _; rewrite L2; cbn [new_slider l_label]); repeat split; reflexivity.
  - injection T2 as L0 A0 A1. injection T3 as L1 A2 A3. rewrite A0, A1 in R0. rewrite A2, A3 in R1. unfold look, dials. cbn [v_ranges].
    buttons B; rewrite <- B in T1, D; cbn in T1, D; injection T1 as <- <- <-; injection D as <-;
      rewrite T4; cbn [new_slider l_lo l_hi] in *; try (injection T5 as L2 A4 A5; rewrite A4, A5 in R2; cbn [new_slider l_lo l_hi] in R2);
      (split; [cbn [valid]; repeat split; lra|]); cbn [app map]; rewrite ?A0, ?A1, ?A2, ?A3, ?A4, ?A5; cbn [new_slider l_lo l_hi];
      (split; [reflexivity|]); repeat (apply Forall2_cons; [cbn [fst snd]; lra|]); apply Forall2_nil.
Qed.

(** Two states that look alike. *)
Record alike (e e' : explorer) : Prop := {
  k_name : e_name e = e_name e'; k_s0 : e_s0 e = e_s0 e'; k_s1 : e_s1 e = e_s1 e'; k_ax2 : e_ax2 e = e_ax2 e';
  k_s2 : e_ax2 e = true -> e_s2 e = e_s2 e' }.
Lemma hidden_irrelevant e a b c c' : good e -> e_ax2 e = false -> dist_of (e_name e) a b c = dist_of (e_name e) a b c'.
Proof.
  intros G V. pose proof (g_shape e G) as [t0 [t1 [t2 [T1 [_ [_ [T4 _]]]]]]]. pose proof (g_name e G) as B.
  rewrite V in T4. buttons B; rewrite <- B in T1 |- *; cbn in T1; injection T1 as <- <- <-; try discriminate; reflexivity.
Qed.
Lemma alike_dist e e' : good e -> alike e e' ->
  dist_of (e_name e) (l_val (e_s0 e)) (l_val (e_s1 e)) (l_val (e_s2 e)) = dist_of (e_name e') (l_val (e_s0 e')) (l_val (e_s1 e')) (l_val (e_s2 e')).
Proof.
  intros G A. rewrite <- (k_name _ _ A), <- (k_s0 _ _ A), <- (k_s1 _ _ A).
  destruct (e_ax2 e) eqn:V; [now rewrite (k_s2 _ _ A V)|]. now apply hidden_irrelevant.
Qed.
Lemma alike_look e e' : good e -> good e' -> alike e e' -> look e = look e'.
Proof.
  intros G G' A. pose proof (alike_dist e e' G A) as D.
  pose proof (g_drawn e G) as U. pose proof (g_drawn e' G') as U'. unfold update_params in U, U'. rewrite <- D in U'.
  destruct (dist_of _ _ _ _) as [d|x]; cbn [bind] in U, U'; [|discriminate].
  assert (forall a b : explorer, Ok a = Ok b -> a = b) as J by (intros a b H; now inversion H). apply J in U, U'. clear D J.
  unfold look, dials, panels. rewrite <- (k_ax2 _ _ A), <- (k_name _ _ A), <- (k_s0 _ _ A), <- (k_s1 _ _ A).
  assert (map (fun s : slider => (l_label s, l_val s)) ([e_s0 e; e_s1 e] ++ (if e_ax2 e then [e_s2 e] else [])) =
          map (fun s : slider => (l_label s, l_val s)) ([e_s0 e; e_s1 e] ++ (if e_ax2 e then [e_s2 e'] else []))) as ->.
  { destruct (e_ax2 e) eqn:V; [now rewrite (k_s2 _ _ A V)|reflexivity]. }
  assert (map (fun s : slider => (l_lo s, l_hi s)) ([e_s0 e; e_s1 e] ++ (if e_ax2 e then [e_s2 e] else [])) =
          map (fun s : slider => (l_lo s, l_hi s)) ([e_s0 e; e_s1 e] ++ (if e_ax2 e then [e_s2 e'] else []))) as ->.
  { destruct (e_ax2 e) eqn:V; [now rewrite (k_s2 _ _ A V)|reflexivity]. }
  f_equal.
  - rewrite <- U, <- U'. reflexivity.
  - rewrite <- U, <- U'. reflexivity.
Qed.
Lemma update_fields e e1 : update_params e = Ok e1 ->
  e_name e1 = e_name e /\ e_s0 e1 = e_s0 e /\ e_s1 e1 = e_s1 e /\ e_s2 e1 = e_s2 e /\ e_ax2 e1 = e_ax2 e.
Proof.
  unfold update_params. destruct (dist_of _ _ _ _) as [d|x]; cbn [bind]; [|discriminate]. intros H. injection H as <-. cbn. tauto.
Qed.
Lemma click_fields e e1 name : update_distribution name e = Ok e1 -> exists t0 t1 t2, sliders_of name = Ok (t0, t1, t2) /\
  e_name e1 = name /\ e_s0 e1 = connect t0 /\ e_s1 e1 = connect t1 /\ e_s2 e1 = connect (match t2 with Some t => t | None => e_s2 e end) /\
  e_ax2 e1 = match t2 with Some _ => true | None => false end.
Proof.
  unfold update_distribution. destruct (sliders_of name) as [[[t0 t1] t2]|x]; cbn [bind]; [|discriminate]. intros H.
  exists t0, t1, t2. destruct (update_params _) as [e2|x] eqn:U; cbn [bind] in H; [|discriminate]. apply update_fields in U. cbn [e_name e_s0 e_s1 e_s2 e_ax2] in U.
  assert (forall a b : explorer, Ok a = Ok b -> a = b) as J by (intros a b Q; now inversion Q). apply J in H. subst e1.
  destruct U as [-> [U0 [U1 [U2 ->]]]] || destruct U as [U' [U0 [U1 [U2 U3]]]]. unfold interactive. cbn [e_name e_s0 e_s1 e_s2 e_ax2].
  rewrite U0, U1, U2, ?U', ?U3. tauto.
Qed.
Lemma click_alike e e' name e1 e1' : update_distribution name e = Ok e1 -> update_distribution name e' = Ok e1' -> alike e1 e1'.
Proof.
  intros H H'. destruct (click_fields _ _ _ H) as [t0 [t1 [t2 [T [A [B [C [D E]]]]]]]].
  destruct (click_fields _ _ _ H') as [u0 [u1 [u2 [T' [A' [B' [C' [D' E']]]]]]]].
  rewrite T in T'. injection T' as <- <- <-. constructor; try congruence. rewrite E. destruct t2; [|discriminate]. congruence.
Qed.
Lemma react_alike e e' ev e1 e1' : good e -> good e' -> alike e e' -> react e ev = Ok e1 -> react e' ev = Ok e1' -> alike e1 e1'.
Proof.
  intros G G' A H H'. destruct ev as [i|i v|]; cbn [react] in H, H'.
  - destruct (nth_error buttons i) as [name|]; [|injection H as <-; injection H' as <-; exact A]. eapply click_alike; eassumption.
  - destruct i as [|[|[|i]]]; cbn [react] in H, H'.
    + rewrite repeat_once in H by (rewrite (g_c0 e G); lia). rewrite repeat_once in H' by (rewrite (g_c0 e' G'); lia).
      apply update_fields in H, H'. cbn [e_name e_s0 e_s1 e_s2 e_ax2] in H, H'. destruct H as [N [S0 [S1 [S2 V]]]]. destruct H' as [N' [S0' [S1' [S2' V']]]].
      destruct A as [K1 K2 K3 K4 K5]. constructor; try congruence. rewrite V, S2, S2'. exact K5.
    + rewrite repeat_once in H by (rewrite (g_c1 e G); lia). rewrite repeat_once in H' by (rewrite (g_c1 e' G'); lia).
      apply update_fields in H, H'. cbn [e_name e_s0 e_s1 e_s2 e_ax2] in H, H'. destruct H as [N [S0 [S1 [S2 V]]]]. destruct H' as [N' [S0' [S1' [S2' V']]]].
      destruct A as [K1 K2 K3 K4 K5]. constructor; try congruence. rewrite V, S2, S2'. exact K5.
    + rewrite <- (k_ax2 _ _ A) in H'. destruct (e_ax2 e) eqn:Q; [|injection H as <-; injection H' as <-; exact A].
      rewrite repeat_once in H by apply (g_c2 e G). rewrite repeat_once in H' by apply (g_c2 e' G').
      apply update_fields in H, H'. cbn [e_name e_s0 e_s1 e_s2 e_ax2] in H, H'. destruct H as [N [S0 [S1 [S2 V]]]]. destruct H' as [N' [S0' [S1' [S2' V']]]].
      destruct A as [K1 K2 K3 K4 K5]. constructor; try congruence. intros _. rewrite S2, S2', (K5 Q). reflexivity.
    + injection H as <-; injection H' as <-; exact A.
  - apply update_fields in H, H'. destruct H as [N [S0 [S1 [S2 V]]]]. destruct H' as [N' [S0' [S1' [S2' V']]]].
    destruct A as [K1 K2 K3 K4 K5]. constructor; try congruence. rewrite V, S2, S2'. exact K5.
Qed.
Lemma run_alike h : forall e e' e1 e1', good e -> good e' -> alike e e' -> run e h = Ok e1 -> run e' h = Ok e1' -> alike e1 e1' /\ good e1 /\ good e1'.
Proof.
  induction h as [|ev r IH]; intros e e' e1 e1' G G' A H H'; cbn [run] in H, H'.
  - injection H as <-. injection H' as <-. split; [exact A|now split].
  - destruct (react_good e ev G) as [e2 [R2 G2]]. destruct (react_good e' ev G') as [e2' [R2' G2']]. rewrite R2 in H. rewrite R2' in H'.
    cbn [bind] in H, H'. apply (IH e2 e2'); try assumption. eapply react_alike; [| | |exact R2|exact R2']; assumption.
Qed.
