(** Property C06: the case of the letters of a code is irrelevant, and nothing else of it is. *)
From Coq Require Import String Ascii List ZArith Bool Lia.
From Verif Require Import Base ConvertModel ConvertSpec ConvertProofs.
Import ListNotations.
Open Scope list_scope.

(** Two characters are the same letter: equal, or the capital and the small form of one letter. 65 is A, 97 is a. *)
Definition same_letter (c d : ascii) : Prop :=
  c = d \/ exists k, (k < 26)%nat /\
    ((c = ascii_of_nat (65 + k) /\ d = ascii_of_nat (97 + k)) \/ (c = ascii_of_nat (97 + k) /\ d = ascii_of_nat (65 + k))).

Inductive same_text : string -> string -> Prop :=
  | same_end : same_text EmptyString EmptyString
  | same_char c d s t : same_letter c d -> same_text s t -> same_text (String c s) (String d t).

Definition same_code (c d : code) : Prop :=
  match c, d with
  | CStr s, CStr t => same_text s t
  | CNum m, CNum n => m = n
  | _, _ => False
  end.

Definition same_option (c d : option code) : Prop :=
  match c, d with Some c, Some d => same_code c d | None, None => True | _, _ => False end.

Lemma upper_ascii_spec : forall c d, upper_ascii c = upper_ascii d <-> same_letter c d.
Proof.
  assert (forall c, exists n, (n < 256)%nat /\ c = ascii_of_nat n) as AN.
  { intros c. exists (nat_of_ascii c). split; [apply nat_ascii_bounded|symmetry; apply ascii_nat_embedding]. }
  intros c d. destruct (AN c) as (m & Hm & ->), (AN d) as (n & Hn & ->). unfold same_letter, upper_ascii.
  rewrite !nat_ascii_embedding by assumption.
  assert (forall i j, (i < 256)%nat -> (j < 256)%nat -> ascii_of_nat i = ascii_of_nat j -> i = j) as INJ.
  { intros i j Hi Hj E. apply (f_equal nat_of_ascii) in E. now rewrite !nat_ascii_embedding in E. }
  destruct (Nat.leb_spec 97 m), (Nat.leb_spec m 122), (Nat.leb_spec 97 n), (Nat.leb_spec n 122); cbn [andb]; split; intros E;
    try (left; exact E);
    repeat match goal with
    | E : _ \/ _ |- _ => destruct E
    | E : exists _, _ |- _ => destruct E
    | E : _ /\ _ |- _ => destruct E
    | E : ascii_of_nat _ = ascii_of_nat _ |- _ => apply INJ in E; [|lia|lia]
    end; try lia; try (f_equal; lia); subst; try (left; f_equal; lia); try reflexivity.
  all: right; match goal with
    | |- exists _, _ /\ ((ascii_of_nat ?c = _ /\ ascii_of_nat ?d = _) \/ _) =>
        (exists (c - 97)%nat; split; [lia|]; right; split; f_equal; lia) || (exists (d - 97)%nat; split; [lia|]; left; split; f_equal; lia) end.
Qed.

Lemma upper_spec : forall s t, upper s = upper t <-> same_text s t.
Proof.
  induction s as [|c s IH]; intros [|d t]; simpl; split; intros E; try discriminate E; try inversion E; subst; auto; try constructor.
  - now apply upper_ascii_spec.
  - now apply IH.
  - f_equal; [now apply upper_ascii_spec|now apply IH].
Qed.

Lemma code_upper_spec : forall c d, code_upper c = code_upper d <-> same_code c d.
Proof.
  intros [s|m] [t|n]; simpl; split; intros E; try discriminate E; try contradiction; try congruence.
  - apply upper_spec. congruence.
  - f_equal. now apply upper_spec.
Qed.

Lemma option_upper c d : same_option c d -> option_map code_upper c = option_map code_upper d.
Proof. destruct c, d; simpl; intros H; try contradiction; [f_equal; now apply code_upper_spec|reflexivity]. Qed.

(** A column whose codes differ from those of another only in case is converted alike, whatever the case of the codes asked for;
    and a code is read as the code asked for exactly when the two differ at most in case. *)
Theorem C06_case_ignored : forall {T} (X : list T) C D N fc fd cc cd, Forall2 same_code C D -> same_option fc fd -> same_option cc cd ->
  XCN_to_FR X C N cc fc = XCN_to_FR X D N cd fd /\
  (forall leb out_c out_f, xlsx_to_XCN leb X C N cc fc out_c out_f = xlsx_to_XCN leb X D N cd fd out_c out_f).
Proof.
  intros T X C D N fc fd cc cd HC Hf Hc.
  assert (map code_upper C = map code_upper D) as E.
  { induction HC as [|c d C D H HC IH]; [reflexivity|]. simpl. f_equal; [now apply code_upper_spec|exact IH]. }
  assert (List.length C = List.length D) as EL by (rewrite <- (map_length code_upper C), E; apply map_length).
  apply option_upper in Hf, Hc. split.
  - unfold XCN_to_FR. now rewrite E, EL, Hf, Hc.
  - intros. unfold xlsx_to_XCN. now rewrite E, Hf, Hc.
Qed.
Print Assumptions C06_case_ignored.

Theorem C06_only_case : forall fc c, (means_failure (Some fc) None c <-> same_code c fc \/ exists d, In d documented_failure_codes /\ same_code c d) /\
  (means_censored None (Some fc) c <-> same_code c fc \/ exists d, In d documented_censored_codes /\ same_code c d).
Proof.
  assert (forall l, Forall (fun d => code_upper d = d) l -> forall c, In (code_upper c) l <-> exists d, In d l /\ same_code c d) as K.
  { intros l Hl c. rewrite Forall_forall in Hl. split.
    - intros H. exists (code_upper c). split; [exact H|]. apply code_upper_spec. symmetry. apply code_upper_idem.
    - intros (d & Hd & S). apply code_upper_spec in S. rewrite S, (Hl d Hd). exact Hd. }
  intros fc c. unfold means_failure, means_censored. cbn [option_map]. rewrite <- (code_upper_spec c fc), <- !K.
  - split; split; intros H.
    + destruct H as [H|[_ H]]; [left; congruence|now right].
    + destruct H as [H|H]; [left; congruence|right; split; [discriminate|exact H]].
    + destruct H as [_ [H|H]]; [left; congruence|now right].
    + split; [discriminate|]. destruct H as [H|H]; [left; congruence|now right].
  - repeat constructor.
  - repeat constructor.
Qed.
Print Assumptions C06_only_case.

Example C06_case_example : Forall2 same_code [CStr "Fail"; CStr "c"; CNum 7]%string [CStr "fAIL"; CStr "C"; CNum 7]%string /\ ~ same_code (CStr "F"%string) (CStr "C"%string).
Proof.
  split; [|intros H; apply code_upper_spec in H; discriminate H].
  repeat (apply Forall2_cons; [apply code_upper_spec; reflexivity|]). constructor.
Qed.
