(** Property C150: writing a spreadsheet destroys no file without consent. *)
From Coq Require Import String Ascii.
From Coq Require Import List Arith Bool Lia.
From Verif Require Import Base ConvertModel WriteModel WriteSpec WriteProofs.
Import ListNotations.
Open Scope list_scope.

Section Write.
  Context {sheet : Type} (os : platform) (can_write : path -> bool).
  Implicit Types fs : @fsys sheet.
  Notation write := (write_df_to_xlsx os can_write).

  (** One file is written; if it could be read before, it is the one named and the user agreed. *)
  Theorem C150_no_loss fs fs' answers fuel p s q n : write fs answers fuel p s = Some (Ok (fs', (q, n))) ->
    only_writes fs fs' q s /\ (readable_file fs q -> q = p /\ exists m, n = S m /\ first_yes answers m).
  Proof.
    intros H. unfold write_df_to_xlsx in H. destruct (choose_path os fs answers fuel true 0 p) as [[[q' n']|e]|] eqn:E; try discriminate H. unfold to_excel in H. destruct (can_write q'); [|discriminate H].
    injection H as Hfs Hq Hn. subst q' n' fs'. split.
    - split; [exists (mkFile s true); destruct (list_eq_dec ascii_dec q q); [auto|congruence]|]. intros r Hr. destruct (list_eq_dec ascii_dec r q); [congruence|reflexivity].
    - intros HR. apply chosen in E; [|intros i Hi; lia]. destruct E as [(E & -> & _)|(_ & m & -> & [(-> & HY)|(_ & HN)])]; [contradiction| |contradiction]. split; [reflexivity|]. exists m. auto.
  Qed.
  (** Nothing is asked when the file does not exist. *)
  Theorem C150_fresh fs answers p s : ~ exists_file fs p -> can_write p = true -> exists fs', write fs answers 1 p s = Some (Ok (fs', (p, 0))).
  Proof.
    intros H HW. unfold write_df_to_xlsx. cbn [choose_path]. unfold can_open. unfold exists_file in H. destruct (fs p) as [f|]; [exfalso; apply H; discriminate|]. unfold to_excel. rewrite HW. eexists. reflexivity.
  Qed.
  (** A refusal keeps the file: another one is written. The questions end with the first answer that is one. *)
  Theorem C150_refusal fs fs' answers fuel p s q n m : write fs answers fuel p s = Some (Ok (fs', (q, n))) -> readable_file fs p -> first_no answers m ->
    q <> p /\ fs' p = fs p /\ ~ readable_file fs q /\ n = S m.
  Proof.
    intros H HR HN. destruct (C150_no_loss _ _ _ _ _ _ _ _ H) as [[_ HO] HL]. unfold write_df_to_xlsx in H. destruct (choose_path os fs answers fuel true 0 p) as [[[q' n']|e]|] eqn:E; try discriminate H. unfold to_excel in H. destruct (can_write q'); [|discriminate H].
    assert (q' = q /\ n' = n) as [-> ->] by (split; congruence). apply chosen in E; [|intros i Hi; lia]. destruct E as [(E & _)|(_ & m' & -> & E)]; [contradiction|].
    assert (forall k k', first_no answers k -> (first_no answers k' \/ first_yes answers k') -> k = k' /\ ~ first_yes answers k') as HU.
    { intros k k' [A1 A2] HB. assert (k = k') as <-.
      { destruct (Nat.lt_trichotomy k k') as [Hlt|[E'|Hlt]]; [|exact E'|]; exfalso; [destruct HB as [[_ B]|[_ B]]; destruct (B k Hlt); contradiction|destruct (A2 k' Hlt) as [N1 N2]; destruct HB as [[B _]|[B _]]; contradiction]. }
      split; [reflexivity|]. intros [Y _]. exact (yes_not_no _ Y A1). }
    destruct E as [(-> & HY)|(HN' & HQ)].
    - destruct (HU m m' HN (or_intror HY)) as [_ HC]. contradiction.
    - destruct (HU m m' HN (or_introl HN')) as [<- _]. assert (q <> p) as Hqp by (intros ->; contradiction). repeat (split; auto).
  Qed.
  (** Consent overwrites the file named. *)
  Theorem C150_consent fs answers p s m : readable_file fs p -> first_yes answers m -> can_write p = true ->
    exists fs', write fs answers (S m) p s = Some (Ok (fs', (p, S m))).
  Proof.
    intros HR [HY HN] HW. assert (forall k asked, asked + k = m -> choose_path os fs answers (S k) true asked p = Some (Ok (p, S m))) as G.
    { apply can_open_iff in HR. induction k as [|k IH]; intros asked E.
      - rewrite Nat.add_0_r in E. subst asked. cbn [choose_path]. rewrite HR. assert (String.eqb (upper (answers m)) "N" = false) as -> by (apply not_true_iff_false; rewrite no_iff; exact (yes_not_no _ HY)). apply yes_iff in HY. rewrite HY. reflexivity.
      - destruct (HN asked ltac:(lia)) as [N1 N2]. rewrite <- yes_iff in N1. rewrite <- no_iff in N2. apply not_true_is_false in N1, N2. remember (S k) as k1. cbn [choose_path]. rewrite HR, N2, N1. subst k1. apply IH. lia. }
    unfold write_df_to_xlsx. rewrite (G m 0 eq_refl). unfold to_excel. rewrite HW. eexists. reflexivity.
  Qed.
  (** It ends, whatever files there are, once the user answers; and it keeps asking until then. *)
  Theorem C150_ends fs answers p s : finite_files fs -> ~ readable_file fs p \/ (exists m, first_yes answers m \/ first_no answers m) ->
    exists fuel r, forall fuel', fuel <= fuel' -> write fs answers fuel' p s = Some r.
  Proof.
    intros HF H. assert (exists fuel r, choose_path os fs answers fuel true 0 p = Some r) as (fuel & r & G).
    { destruct H as [H|(m & H)]; [|now apply (asking_ends os fs answers p m HF)]. exists 1. cbn [choose_path]. destruct (can_open fs p) eqn:E; [apply can_open_iff in E; contradiction|eexists; reflexivity]. }
    exists fuel. destruct r as [[q n]|e]; eexists; intros fuel' Hf; unfold write_df_to_xlsx; rewrite (more_fuel _ _ _ _ _ _ _ _ G fuel' Hf); reflexivity.
  Qed.
  Theorem C150_waits fs answers p s : readable_file fs p -> (forall i, neither (answers i)) -> forall fuel, write fs answers fuel p s = None.
  Proof.
    intros HR HN fuel. unfold write_df_to_xlsx. assert (forall asked, choose_path os fs answers fuel true asked p = None) as ->; [|reflexivity].
    apply can_open_iff in HR. induction fuel as [|fuel IH]; intros asked; [reflexivity|]. destruct (HN asked) as [N1 N2]. rewrite <- yes_iff in N1. rewrite <- no_iff in N2. apply not_true_is_false in N1, N2. cbn [choose_path]. rewrite HR, N2, N1. apply IH.
  Qed.
  (** Errors: pandas cannot write the file, or the user refused. *)
  Theorem C150_errors fs answers fuel p s e : write fs answers fuel p s = Some (Err e) ->
    e = ValueError \/ (e = IndexError /\ readable_file fs p /\ exists m, first_no answers m).
  Proof.
    intros H. unfold write_df_to_xlsx in H. destruct (choose_path os fs answers fuel true 0 p) as [[[q' n']|e']|] eqn:E; try discriminate H.
    - unfold to_excel in H. destruct (can_write q'); [discriminate H|]. left. congruence.
    - apply chosen in E; [|intros i Hi; lia]. right. assert (e' = e) as -> by congruence. exact E.
  Qed.
  (** The options of the user reach pandas, but for excel_writer; index is False unless given. *)
  Theorem C150_options {V} (kwargs : list (string * V)) : NoDup (map fst kwargs) ->
    (forall v, fst (excel_kwargs kwargs) = Some v <-> In ("index"%string, v) kwargs) /\
    (forall k v, In (k, v) (snd (excel_kwargs kwargs)) <-> (In (k, v) kwargs /\ k <> "index"%string /\ k <> "excel_writer"%string)).
  Proof.
    intros HD. unfold excel_kwargs. cbv zeta. cbn [fst snd]. split.
    - intros v. set (f := fun kv : string * V => String.eqb (fst kv) "index"). set (g := fun kv : string * V => negb (String.eqb (fst kv) "excel_writer")).
      destruct (find f (filter g kwargs)) as [[k v']|] eqn:E.
      + apply find_some in E. destruct E as [E1 E2]. apply filter_In in E1. destruct E1 as [E1 _]. apply String.eqb_eq in E2. cbn [fst snd] in *. subst k. split; [intros E3; congruence|]. intros E3. f_equal.
        clear - HD E1 E3. induction kwargs as [|[a b] l IH]; [destruct E1|]. cbn [map fst] in HD. inversion HD as [|? ? Hn Hd]; subst. destruct E1 as [E1|E1], E3 as [E3|E3]; try congruence; [exfalso; apply Hn; injection E1 as -> ->; exact (in_map fst _ _ E3)|exfalso; apply Hn; injection E3 as -> ->; exact (in_map fst _ _ E1)|now apply IH].
      + split; [discriminate|]. intros E3. exfalso. pose proof (find_none _ _ E ("index"%string, v) ltac:(apply filter_In; split; [exact E3|reflexivity])) as E4. discriminate E4.
    - intros k v. rewrite !filter_In. cbn [fst]. rewrite !negb_true_iff, !String.eqb_neq. tauto.
  Qed.
End Write.

(** ** The new name *)
Lemma rstrip_none sep p : p <> [] -> sep (last p dot) = false -> rstrip sep p = p.
Proof.
  intros Hn H. unfold rstrip. destruct (exists_last Hn) as (l & c & ->). rewrite last_last in H. rewrite rev_app_distr. cbn [rev app strip_front]. rewrite H. cbn [rev]. now rewrite rev_involutive.
Qed.
Lemma rstrip_one sep p c : p <> [] -> sep c = true -> sep (last p dot) = false -> rstrip sep (p ++ [c]) = p.
Proof. intros Hn Hc H. rewrite <- (rstrip_none sep p Hn H) at 2. unfold rstrip. rewrite rev_app_distr. cbn [rev app strip_front]. now rewrite Hc. Qed.
Lemma split_last_none sep p : Forall (fun c => sep c = false) p -> split_last sep p = ([], p).
Proof. induction 1 as [|c p Hc _ IH]; [reflexivity|]. cbn [split_last]. now rewrite IH, Hc. Qed.
Lemma split_last_at sep p c t : sep c = true -> Forall (fun c => sep c = false) t -> split_last sep (p ++ c :: t) = (p ++ [c], t).
Proof.
  intros Hc Ht. induction p as [|x p IH]; cbn [app split_last]; [now rewrite split_last_none, Hc|]. rewrite IH. destruct (p ++ [c]) eqn:E; [destruct p; discriminate E|reflexivity].
Qed.
Lemma windows_split dir name : windows_directory dir -> no_sep name -> nt_split (in_directory dir name) = (dir, name).
Proof.
  intros (drive & r & -> & HD & Hr & HL) Hn. unfold nt_split, in_directory. rewrite <- app_assoc.
  assert (nt_drive (drive ++ r ++ backslash :: name) = (drive, r ++ backslash :: name)) as ->.
  { unfold nt_drive. destruct HD as [[-> HC]|(a & -> & Ha)]; cbn [app]; [|rewrite Ha; reflexivity]. destruct r as [|a [|b r]]; [contradiction| |]; cbn [app]; [reflexivity|]. destruct (Ascii.eqb_spec b colon) as [->|_]; [|reflexivity]. exfalso. apply HC. right. now left. }
  rewrite split_last_at by (exact Hn || reflexivity). rewrite rstrip_one by (assumption || reflexivity). destruct r; [contradiction|reflexivity].
Qed.
Lemma one_dot base ext : no_dot base -> no_dot ext -> split_dots (base ++ dot :: ext) = [base; ext].
Proof.
  intros Hb He. assert (forall p, no_dot p -> split_dots p = [p]) as G.
  { clear. induction p as [|c p IH]; intros H; [reflexivity|]. cbn [split_dots]. rewrite IH by (intros Hi; apply H; now right). destruct (Ascii.eqb_spec c dot) as [->|_]; [exfalso; apply H; now left|reflexivity]. }
  induction base as [|c base IH]; cbn [app split_dots].
  - now rewrite G.
  - rewrite IH by (intros Hi; apply Hb; now right). destruct (Ascii.eqb_spec c dot) as [->|_]; [exfalso; apply Hb; now left|reflexivity].
Qed.
Lemma new_suffix_free : no_dot new_suffix /\ no_sep new_suffix.
Proof. split; [intros H; cbn in H; repeat (destruct H as [H|H]; [discriminate H|]); exact H|repeat constructor]. Qed.
(** A Windows path with a directory and one dot in the name: the new file is in the same directory, its name is the
    old one with "(new)" added before the extension until the name is free. Missing from the full
    statement: other systems, paths without a directory and names with more dots, see below. *)
Theorem C150_new_name_partial {sheet} (fs : @fsys sheet) can_write fs' answers fuel dir base ext s q n m :
  windows_directory dir -> no_sep base -> no_sep ext -> no_dot base -> no_dot ext ->
  let named k := in_directory dir ((base ++ new_times k) ++ dot :: ext) in
  readable_file fs (named 0) -> first_no answers m ->
  write_df_to_xlsx Windows can_write fs answers fuel (named 0) s = Some (Ok (fs', (q, n))) ->
  exists k, 0 < k /\ q = named k /\ ~ readable_file fs (named k) /\ forall i, i < k -> readable_file fs (named i).
Proof.
  intros HD Sb Se Db De named HR HN H.
  assert (forall k, new_path Windows (named k) = Ok (named (S k))) as HNew.
  { intros k. unfold new_path. cbn [os_path_split]. unfold named at 1 2 3. destruct new_suffix_free as [F1 F2].
    assert (no_sep (new_times k) /\ no_dot (new_times k)) as [G1 G2].
    { induction k as [|k [IH1 IH2]]; cbn [new_times]; [split; [constructor|intros []]|]. split; [apply Forall_app; now split|]. intros Hi. apply in_app_or in Hi. destruct Hi; contradiction. }
    rewrite windows_split; [|exact HD|apply Forall_app; split; [apply Forall_app; split; assumption|constructor; [reflexivity|assumption]]]. cbn [fst snd].
    rewrite one_dot; [|intros Hi; apply in_app_or in Hi; destruct Hi; contradiction|exact De]. unfold named, in_directory. cbn [new_times]. cbn [app]. now rewrite <- !app_assoc. }
  unfold write_df_to_xlsx in H. destruct (choose_path Windows fs answers fuel true 0 (named 0)) as [[[q' n']|e]|] eqn:E; try discriminate H. unfold to_excel in H. destruct (can_write q'); [|discriminate H].
  assert (q' = q /\ n' = n) as [-> ->] by (split; congruence). clear H fs'.
  assert (forall fuel asked j, choose_path Windows fs answers fuel false asked (named j) = Some (Ok (q, n)) -> exists k, j <= k /\ q = named k /\ ~ readable_file fs (named k) /\ forall i, j <= i < k -> readable_file fs (named i)) as G.
  { clear - HNew. induction fuel as [|fuel IH]; intros asked j H; [discriminate H|]. cbn [choose_path] in H. destruct (can_open fs (named j)) eqn:EO.
    - change (String.eqb (upper "N") "N") with true in H. cbv iota in H. rewrite HNew in H. apply IH in H. destruct H as (k & Hk & -> & Hq & HA). exists k. split; [lia|]. split; [reflexivity|]. split; [exact Hq|]. intros i Hi. destruct (Nat.eq_dec i j) as [->|]; [now apply can_open_iff|apply HA; lia].
    - exists j. assert (named j = q) as <- by congruence. split; [lia|]. split; [reflexivity|]. split; [rewrite <- can_open_iff, EO; discriminate|]. intros i Hi. lia. }
  assert (forall fuel k asked, asked + k = m -> choose_path Windows fs answers fuel true asked (named 0) = Some (Ok (q, n)) -> exists k, 1 <= k /\ q = named k /\ ~ readable_file fs (named k) /\ forall i, 1 <= i < k -> readable_file fs (named i)) as G2.
  { clear E. pose proof (proj2 (can_open_iff _ _) HR) as HO. destruct HN as [HN HN']. induction fuel0 as [|f IH]; intros k asked Ek H; [discriminate H|]. cbn [choose_path] in H. rewrite HO in H.
    destruct k as [|k].
    - rewrite Nat.add_0_r in Ek. subst asked. apply no_iff in HN. rewrite HN, HNew in H. exact (G _ _ _ H).
    - destruct (HN' asked ltac:(lia)) as [N1 N2]. rewrite <- yes_iff in N1. rewrite <- no_iff in N2. apply not_true_is_false in N1, N2. rewrite N2, N1 in H. apply (IH k (S asked)); [lia|exact H]. }
  destruct (G2 _ m 0 eq_refl E) as (k & Hk & -> & Hq & HA). exists k. split; [lia|]. split; [reflexivity|]. split; [exact Hq|]. intros i Hi. destruct i as [|i]; [exact HR|apply HA; lia].
Qed.
Print Assumptions C150_no_loss.
Print Assumptions C150_fresh.
Print Assumptions C150_refusal.
Print Assumptions C150_consent.
Print Assumptions C150_ends.
Print Assumptions C150_waits.
Print Assumptions C150_errors.
Print Assumptions C150_options.
Print Assumptions C150_new_name_partial.

Open Scope string_scope.
Open Scope list_scope.
(** A file system with the files of a list. *)
Definition files (l : list string) : @fsys nat := fun p => if existsb (String.eqb (string_of_list_ascii p)) l then Some (mkFile 0 true) else None.
Definition text (s : string) : path := list_ascii_of_string s.
Lemma files_finite l : finite_files (files l).
Proof.
  exists (map list_ascii_of_string l). intros p H. unfold files in H. destruct (existsb _ l) eqn:E; [|congruence]. apply existsb_exists in E. destruct E as (s & Hs & E). apply String.eqb_eq in E.
  apply in_map_iff. exists s. split; [|exact Hs]. rewrite <- E. apply list_ascii_of_string_of_list_ascii.
Qed.
Example C150_case : exists fs', write_df_to_xlsx Windows (fun _ => true) (files ["C:\data\out.xlsx"; "C:\data\out(new).xlsx"]) (fun i => if Nat.eqb i 0 then "what?" else "n")%string 10 (text "C:\data\out.xlsx") 7 = Some (Ok (fs', (text "C:\data\out(new)(new).xlsx", 2)))
  /\ windows_directory (text "C:\data") /\ first_no (fun i => if Nat.eqb i 0 then "what?" else "n")%string 1 /\ finite_files (files ["C:\data\out.xlsx"; "C:\data\out(new).xlsx"]) /\ readable_file (files ["C:\data\out.xlsx"; "C:\data\out(new).xlsx"]) (text "C:\data\out.xlsx").
Proof.
  eexists. split; [vm_compute; reflexivity|]. split; [exists (text "C:"), (text "\data"); split; [reflexivity|]; split; [right; exists "C"%char; split; reflexivity|split; [discriminate|reflexivity]]|].
  split; [split; [right; reflexivity|]; intros [|i] Hi; [|lia]; split; intros [E|E]; discriminate E|]. split; [apply files_finite|]. exists (mkFile 0 true). split; reflexivity.
Qed.

(** ** Where the new file is not where the old one is *)
(** On Linux and macOS the backslash is no separator: the new file is in the directory above. *)
Theorem C150_posix_refuted : exists fs answers p s fs' q n,
  readable_file fs p /\ first_no answers 0 /\ write_df_to_xlsx (sheet := nat) Posix (fun _ => true) fs answers 10 p s = Some (Ok (fs', (q, n))) /\
  fst (os_path_split Posix p) = text "/home/me" /\ fst (os_path_split Posix q) = text "/home" /\ q = text "/home/me\out(new).xlsx".
Proof.
  eexists (files ["/home/me/out.xlsx"]), (fun _ => "N"%string), (text "/home/me/out.xlsx"), 7, _, _, _. split; [exists (mkFile 0 true); split; reflexivity|]. split; [split; [left; reflexivity|intros i Hi; lia]|].
  split; [vm_compute; reflexivity|]. repeat split.
Qed.
(** On Windows a path without a directory becomes one in the root of the drive. *)
Theorem C150_relative_refuted : exists fs answers p s fs' q n,
  readable_file fs p /\ first_no answers 0 /\ write_df_to_xlsx (sheet := nat) Windows (fun _ => true) fs answers 10 p s = Some (Ok (fs', (q, n))) /\
  fst (os_path_split Windows p) = [] /\ fst (os_path_split Windows q) = text "\" /\ p = text "out.xlsx" /\ q = text "\out(new).xlsx".
Proof.
  eexists (files ["out.xlsx"]), (fun _ => "N"%string), (text "out.xlsx"), 7, _, _, _. split; [exists (mkFile 0 true); split; reflexivity|]. split; [split; [left; reflexivity|intros i Hi; lia]|].
  split; [vm_compute; reflexivity|]. repeat split.
Qed.
(** A second dot in the name: the extension is lost, and pandas, which chooses the format by the extension, raises. *)
Theorem C150_extension_refuted : exists fs answers p s,
  readable_file fs p /\ first_no answers 0 /\ new_path Windows p = Ok (text "C:\data\run(new).v2") /\ p = text "C:\data\run.v2.xlsx" /\
  forall can_write, (forall q, can_write q = true -> exists q', q = q' ++ text ".xlsx") -> write_df_to_xlsx (sheet := nat) Windows can_write fs answers 10 p s = Some (Err ValueError).
Proof.
  exists (files ["C:\data\run.v2.xlsx"]), (fun _ => "N"%string), (text "C:\data\run.v2.xlsx"), 7. split; [exists (mkFile 0 true); split; reflexivity|]. split; [split; [left; reflexivity|intros i Hi; lia]|].
  split; [vm_compute; reflexivity|]. split; [reflexivity|]. intros cw H. unfold write_df_to_xlsx.
  assert (choose_path Windows (files ["C:\data\run.v2.xlsx"]) (fun _ => "N"%string) 10 true 0 (text "C:\data\run.v2.xlsx") = Some (Ok (text "C:\data\run(new).v2", 1))) as -> by (vm_compute; reflexivity).
  unfold to_excel. destruct (cw (text "C:\data\run(new).v2")) eqn:E; [|reflexivity]. exfalso. apply H in E. destruct E as (q' & E). apply (f_equal (@rev ascii)) in E. rewrite rev_app_distr in E. vm_compute in E. discriminate E.
Qed.
(** A file that may be written but not read is overwritten without a question. *)
Theorem C150_unreadable_refuted : exists fs fs' answers p q n, exists_file fs p /\ write_df_to_xlsx (sheet := nat) Posix (fun _ => true) fs answers 1 p 7 = Some (Ok (fs', (q, n))) /\ q = p /\ n = 0 /\ fs p = Some (mkFile 3 false) /\ fs' p = Some (mkFile 7 true).
Proof.
  eexists (fun _ => Some (mkFile 3 false)), _, (fun _ => ""%string), (text "out.xlsx"), _, _. split; [discriminate|]. split; [reflexivity|]. repeat split.
Qed.
Print Assumptions C150_posix_refuted.
Print Assumptions C150_relative_refuted.
Print Assumptions C150_extension_refuted.
Print Assumptions C150_unreadable_refuted.
