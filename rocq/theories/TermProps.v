(** Property C162: colorprint. *)
From Coq Require Import Ascii String Arith Lia.
From Coq Require Import List Bool.
From Verif Require Import Base ConvertModel ConvertProps2 TermModel TermSpec.
Import ListNotations.
Local Open Scope string_scope.
Local Open Scope list_scope.
Local Open Scope nat_scope.

(** ** The terminal *)
Section Terminal.
  Variable bold_off : bool.

  Lemma text_shown s l rest : no_esc s -> terminal bold_off l R_text (s ++ rest)%string = (in_look s l ++ fst (terminal bold_off l R_text rest), snd (terminal bold_off l R_text rest)).
  Proof.
    induction s as [|c s IH]; cbn [no_esc in_look append app]; intros H.
    - apply surjective_pairing.
    - destruct H as [H1 H2]. cbn [terminal]. destruct (Ascii.eqb_spec c (ascii_of_nat 27)); [contradiction|]. now rewrite IH.
  Qed.

  Definition no_bold (b : bool) (l : look) : look :=
    if b then sgr bold_off 1 l else sgr bold_off 21 l.
  Lemma bold_seq (b : bool) l rest : terminal bold_off l R_text ((if b then esc ++ "1m" else esc ++ "21m") ++ rest)%string = terminal bold_off (no_bold b l) R_text rest.
  Proof. destruct b; reflexivity. Qed.
  Lemma italic_seq (b : bool) l rest : terminal bold_off l R_text ((if b then esc ++ "3m" else esc ++ "23m") ++ rest)%string = terminal bold_off (sgr bold_off (if b then 3 else 23) l) R_text rest.
  Proof. destruct b; reflexivity. Qed.
  Lemma underline_seq (b : bool) l rest : terminal bold_off l R_text ((if b then esc ++ "4m" else esc ++ "24m") ++ rest)%string = terminal bold_off (sgr bold_off (if b then 4 else 24) l) R_text rest.
  Proof. destruct b; reflexivity. Qed.
  Lemma reset_seq l rest : terminal bold_off l R_text ((esc ++ "0m") ++ rest)%string = terminal bold_off plain R_text rest.
  Proof. reflexivity. Qed.
End Terminal.

(** ** Names of colours *)
Definition key_of (c : colour) : string :=
  match c with Grey => "grey" | Red => "red" | Green => "green" | Yellow => "yellow" | Blue => "blue" | Pink => "pink" | Turquoise => "turquoise" end.

(** The colour an argument asks for, or none. *)
Inductive asks : color_arg -> option colour -> Prop :=
  | asks_none : asks C_none None
  | asks_name s n c : In (n, c) names -> same_text s n -> asks (C_str s) (Some c).

Lemma key_asked a c : asks a c -> color_key a = Ok (option_map key_of c).
Proof.
  intros []; [reflexivity|]. apply upper_spec in H0. unfold color_key, among_upper. rewrite H0. clear H0.
  revert n c0 H. assert (Forall (fun p => color_key (C_str (fst p)) = Ok (Some (key_of (snd p)))) names) as F by (repeat constructor).
  rewrite Forall_forall in F. intros n c0 H. exact (F (n, c0) H).
Qed.

Lemma key_refused a : (forall c, ~ asks a c) -> color_key a = Err ValueError.
Proof.
  intros N. destruct a as [|s|]; [exfalso; apply (N None); constructor| |reflexivity].
  assert (forall n c, In (n, c) names -> String.eqb (upper s) (upper n) = false) as F.
  { intros n c H. apply String.eqb_neq. intros E. apply (N (Some c)). apply asks_name with n; [exact H|now apply upper_spec]. }
  unfold color_key, among_upper. cbn [existsb].
  repeat match goal with
  | |- context [String.eqb (upper s) ?lit] =>
    let E := fresh in assert (String.eqb (upper s) lit = false) as E;
    [ let go n c := (exact (F n c ltac:(unfold names; cbn [In]; repeat (first [left; reflexivity|right])))) in
      first [ go "grey" Grey | go "gray" Grey | go "gr" Grey | go "red" Red | go "r" Red | go "green" Green | go "g" Green | go "yellow" Yellow | go "y" Yellow
            | go "blue" Blue | go "b" Blue | go "darkblue" Blue | go "dark blue" Blue | go "pink" Pink | go "p" Pink | go "purple" Pink
            | go "turquoise" Turquoise | go "turq" Turquoise | go "t" Turquoise | go "cyan" Turquoise | go "c" Turquoise | go "lightblue" Turquoise | go "light blue" Turquoise | go "lb" Turquoise ]
    | rewrite E; clear E ]
  end.
  reflexivity.
Qed.

Definition text_code (c : option colour) : string :=
  match c with None => "39m" | Some Grey => "90m" | Some Red => "91m" | Some Green => "92m" | Some Yellow => "93m" | Some Blue => "94m" | Some Pink => "95m" | Some Turquoise => "96m" end.
Definition back_code (c : option colour) : string :=
  match c with None => "49m" | Some Grey => "100m" | Some Red => "101m" | Some Green => "102m" | Some Yellow => "103m" | Some Blue => "104m" | Some Pink => "105m" | Some Turquoise => "106m" end.

(** The look a call asks for. *)
Definition asked (tc bc : option colour) (bold underline italic : bool) : look :=
  {| l_bold := bold; l_italic := italic; l_underline := if underline then U_single else U_none; l_text := tc; l_back := bc |}.

Lemma call_shown bold_off s a b tc bc bold underline italic l out : asks a tc -> asks b bc -> no_esc s ->
  colorprint s a b bold underline italic = Ok out ->
  terminal bold_off l R_text out =
    (in_look s (asked tc bc (if bold then true else if bold_off then false else l_bold l) underline italic) ++ [(ascii_of_nat 10, plain)], plain).
Proof.
  intros A B S. unfold colorprint. rewrite (key_asked a tc A), (key_asked b bc B). cbn [bind].
  assert (lookup background_colors (option_map key_of bc) = Ok (esc ++ back_code bc)%string) as -> by (destruct bc as [[]|]; reflexivity).
  assert (lookup text_colors (option_map key_of tc) = Ok (esc ++ text_code tc)%string) as -> by (destruct tc as [[]|]; reflexivity).
  cbn [bind]. intros E. assert (out = ((if bold then esc ++ "1m" else esc ++ "21m") ++ (if italic then esc ++ "3m" else esc ++ "23m") ++ (if underline then esc ++ "4m" else esc ++ "24m") ++
     (esc ++ back_code bc) ++ (esc ++ text_code tc) ++ s ++ (esc ++ "0m") ++ String (ascii_of_nat 10) "")%string) as -> by congruence.
  rewrite bold_seq, italic_seq, underline_seq.
  assert (forall l rest, terminal bold_off l R_text ((esc ++ back_code bc) ++ rest)%string =
    terminal bold_off {| l_bold := l_bold l; l_italic := l_italic l; l_underline := l_underline l; l_text := l_text l; l_back := bc |} R_text rest) as ->
    by (intros; destruct bc as [[]|]; reflexivity).
  assert (forall l rest, terminal bold_off l R_text ((esc ++ text_code tc) ++ rest)%string =
    terminal bold_off {| l_bold := l_bold l; l_italic := l_italic l; l_underline := l_underline l; l_text := tc; l_back := l_back l |} R_text rest) as ->
    by (intros; destruct tc as [[]|]; reflexivity).
  rewrite text_shown by exact S. rewrite reset_seq.
  assert ({| l_bold := l_bold (sgr bold_off (if underline then 4 else 24) (sgr bold_off (if italic then 3 else 23) (no_bold bold_off bold l)));
             l_italic := l_italic (sgr bold_off (if underline then 4 else 24) (sgr bold_off (if italic then 3 else 23) (no_bold bold_off bold l)));
             l_underline := l_underline (sgr bold_off (if underline then 4 else 24) (sgr bold_off (if italic then 3 else 23) (no_bold bold_off bold l)));
             l_text := tc; l_back := bc |} = asked tc bc (if bold then true else if bold_off then false else l_bold l) underline italic) as E'
    by (destruct bold, italic, underline, bold_off; reflexivity).
  cbn [l_bold l_italic l_underline l_text l_back]. rewrite E'. reflexivity.
Qed.

(** Each call shows its text in the look it asks for, and leaves the terminal plain; from a plain terminal, whatever it makes of 21. *)
Theorem C162_shown_partial bold_off s a b tc bc bold underline italic : asks a tc -> asks b bc -> no_esc s ->
  exists out, colorprint s a b bold underline italic = Ok out /\
    terminal bold_off plain R_text out = (in_look s (asked tc bc bold underline italic) ++ [(ascii_of_nat 10, plain)], plain).
Proof.
  intros A B S. destruct (colorprint s a b bold underline italic) as [out|e] eqn:E.
  - exists out. split; [reflexivity|]. rewrite (call_shown bold_off s a b tc bc bold underline italic plain out A B S E). destruct bold, bold_off; reflexivity.
  - exfalso. revert E. unfold colorprint. rewrite (key_asked a tc A), (key_asked b bc B). cbn [bind].
    assert (lookup background_colors (option_map key_of bc) = Ok (esc ++ back_code bc)%string) as -> by (destruct bc as [[]|]; reflexivity).
    assert (lookup text_colors (option_map key_of tc) = Ok (esc ++ text_code tc)%string) as -> by (destruct tc as [[]|]; reflexivity).
    cbn [bind]. discriminate.
Qed.
Print Assumptions C162_shown_partial.

(** A program's output: calls of colorprint and ordinary text. *)
Inductive action := A_color (s : string) (a b : color_arg) (bold underline italic : bool) | A_print (s : string).
Definition written (x : action) (out : string) : Prop :=
  match x with A_color s a b bold underline italic => colorprint s a b bold underline italic = Ok out | A_print s => out = s end.
Definition expected (x : action) (cells : list (ascii * look)) : Prop :=
  match x with
  | A_color s a b bold underline italic => no_esc s /\ exists tc bc, asks a tc /\ asks b bc /\ cells = in_look s (asked tc bc bold underline italic) ++ [(ascii_of_nat 10, plain)]
  | A_print s => no_esc s /\ cells = in_look s plain
  end.

(** Whatever was printed before, on a terminal that was plain at the start: every text is in its own look, and the others are plain. *)
Theorem C162_history bold_off actions : forall outs cells, Forall2 written actions outs -> Forall2 expected actions cells ->
  terminal bold_off plain R_text (fold_right append "" outs) = (concat cells, plain).
Proof.
  induction actions as [|x actions IH]; intros outs cells W E; inversion W; subst; inversion E; subst; [reflexivity|].
  match goal with H : Forall2 written actions ?o, K : Forall2 expected actions ?c |- _ => specialize (IH o c H K) end.
  cbn [fold_right concat].
  assert (forall out cs, terminal bold_off plain R_text out = (cs, plain) -> written x out -> forall rest, terminal bold_off plain R_text (out ++ rest)%string = (cs ++ fst (terminal bold_off plain R_text rest), snd (terminal bold_off plain R_text rest))) as G.
  { intros out cs T Wx rest. destruct x as [s a b bo un it|s]; cbn [written expected] in *.
    - match goal with H : no_esc s /\ _ |- _ => destruct H as (S & tc & bc & A & B & _) end.
      revert Wx. unfold colorprint. rewrite (key_asked a tc A), (key_asked b bc B). cbn [bind].
      assert (lookup background_colors (option_map key_of bc) = Ok (esc ++ back_code bc)%string) as -> by (destruct bc as [[]|]; reflexivity).
      assert (lookup text_colors (option_map key_of tc) = Ok (esc ++ text_code tc)%string) as -> by (destruct tc as [[]|]; reflexivity).
      cbn [bind]. intros Wx.
      assert (forall p q r : string, ((p ++ q) ++ r)%string = (p ++ (q ++ r))%string) as AS by (induction p; intros; cbn; [reflexivity|now rewrite IHp]).
      assert (out = ((if bo then esc ++ "1m" else esc ++ "21m") ++ (if it then esc ++ "3m" else esc ++ "23m") ++ (if un then esc ++ "4m" else esc ++ "24m") ++
        (esc ++ back_code bc) ++ (esc ++ text_code tc) ++ s ++ (esc ++ "0m") ++ String (ascii_of_nat 10) "")%string) as Eo by congruence.
      assert (BC : forall l rest, terminal bold_off l R_text ((esc ++ back_code bc) ++ rest)%string =
        terminal bold_off {| l_bold := l_bold l; l_italic := l_italic l; l_underline := l_underline l; l_text := l_text l; l_back := bc |} R_text rest)
        by (intros; destruct bc as [[]|]; reflexivity).
      assert (TC : forall l rest, terminal bold_off l R_text ((esc ++ text_code tc) ++ rest)%string =
        terminal bold_off {| l_bold := l_bold l; l_italic := l_italic l; l_underline := l_underline l; l_text := tc; l_back := l_back l |} R_text rest)
        by (intros; destruct tc as [[]|]; reflexivity).
      subst out. rewrite bold_seq, italic_seq, underline_seq, BC, TC, text_shown, reset_seq in T by exact S.
      rewrite (AS (if bo then _ else _)), bold_seq, (AS (if it then _ else _)), italic_seq, (AS (if un then _ else _)), underline_seq, (AS (esc ++ back_code bc)%string), BC, (AS (esc ++ text_code tc)%string), TC, (AS s), text_shown by exact S.
      rewrite (AS (esc ++ "0m")%string), reset_seq.
      cbn [append terminal fst snd] in T |- *. cbn in T. assert (cs = fst (cs, plain)) as -> by reflexivity. rewrite <- T. cbn [fst].
      set (L := in_look _ _). cbn.
      destruct (terminal bold_off plain R_text rest) as [c1 l1]. cbn [fst snd]. rewrite <- app_assoc. reflexivity.
    - match goal with H : no_esc s /\ _ |- _ => destruct H as (S & _) end. subst out.
      rewrite text_shown by exact S. f_equal. f_equal.
      assert (s = s ++ "")%string as Es by (clear; induction s; cbn; [reflexivity|congruence]). rewrite Es, text_shown in T by exact S. cbn in T. rewrite app_nil_r in T. congruence. }
  match goal with Hw : written x ?out, He : expected x ?cs |- _ =>
    assert (terminal bold_off plain R_text out = (cs, plain)) as T;
    [ destruct x as [s a b bo un it|s]; cbn [written expected] in Hw, He;
      [ destruct He as (S & tc & bc & A & B & ->); destruct (C162_shown_partial bold_off s a b tc bc bo un it A B S) as (o & E1 & E2);
        assert (o = out) as <- by congruence; exact E2
      | destruct He as (S & ->); subst out; assert (s = s ++ "")%string as Es by (clear; induction s; cbn; [reflexivity|congruence]);
        rewrite Es at 1; rewrite text_shown by exact S; cbn; now rewrite app_nil_r ]
    | rewrite (G out cs T Hw), IH; reflexivity ]
  end.
Qed.
Print Assumptions C162_history.

(** Other colours are refused and nothing is printed. *)
Theorem C162_refused s a b bold underline italic : (forall c, ~ asks a c) \/ (forall c, ~ asks b c) -> colorprint s a b bold underline italic = Err ValueError.
Proof.
  intros H. unfold colorprint. destruct H as [H|H]; rewrite (key_refused _ H); [reflexivity|].
  assert (color_key a = Err ValueError \/ exists k, color_key a = Ok k) as [->|[k ->]]; [|reflexivity|reflexivity].
  destruct a as [|t|]; [right; now exists None| |now left]. unfold color_key. repeat (destruct (among_upper _ _); [right; eexists; reflexivity|]). now left.
Qed.
Print Assumptions C162_refused.

(** On a terminal of ECMA-48 that is bold already, a text that is to be not bold is bold: 21 is not the code for that, 22 is. *)
Theorem C162_bold_refuted s a b tc bc underline italic l : asks a tc -> asks b bc -> no_esc s -> l_bold l = true ->
  exists out, colorprint s a b false underline italic = Ok out /\
    terminal false l R_text out = (in_look s (asked tc bc true underline italic) ++ [(ascii_of_nat 10, plain)], plain).
Proof.
  intros A B S L. destruct (C162_shown_partial false s a b tc bc false underline italic A B S) as (out & E & _). exists out. split; [exact E|].
  rewrite (call_shown false s a b tc bc false underline italic l out A B S E). now rewrite L.
Qed.
Print Assumptions C162_bold_refuted.

Example C162_case : asks (C_str "Dark Blue") (Some Blue) /\ asks (C_str "R") (Some Red) /\ (forall c, ~ asks (C_str "orange") c) /\ no_esc "WARNING".
Proof.
  split; [apply asks_name with "dark blue"; [cbn; tauto|now apply upper_spec]|].
  split; [apply asks_name with "r"; [cbn; tauto|now apply upper_spec]|].
  split; [|repeat split; discriminate].
  intros c H. inversion H as [|s n c' Hn Hs]; subst. apply upper_spec in Hs. unfold names in Hn. cbn [In] in Hn.
  repeat (destruct Hn as [Hn|Hn]; [assert (n = fst (n, c')) as En by reflexivity; rewrite <- Hn in En; cbn [fst] in En; rewrite En in Hs; discriminate Hs|]). destruct Hn.
Qed.
