(** Properties C151: what is written to a spreadsheet is what is read from it; C152: rows of a spreadsheet are
    observations. *)
From Coq Require Import String Ascii.
From Coq Require Import List Arith ZArith Bool Lia Permutation.
From Verif Require Import Base ConvertModel ConvertSpec ConvertProofs SheetModel SheetSpec SheetProofs.
Import ListNotations.
Open Scope list_scope.

Lemma Forall2_len {A B} (R : A -> B -> Prop) l m : Forall2 R l m -> length l = length m.
Proof. induction 1; cbn; congruence. Qed.
Section S.
  Context {T : Type} (leb : T -> T -> bool) (ord : total_order leb) (of_int : Z -> T) (exact : T -> option Z) (trunc : T -> Z) (parse : string -> option T).
  Context (HW : whole_numbers of_int exact trunc).

  (** FR data: written and read, the same. *)
  Theorem C151_FR (f : list T) (r : option (list T)) :
    exists s, FR_frame (map Num f) (option_map (map Num) r) = Ok s /\ sheet_to_FR parse s = Ok (map Num f, option_map (map Num) r).
  Proof.
    unfold FR_frame. destruct r as [r|]; cbn [option_map].
    - cbv zeta. set (n := Nat.max _ _). unfold data_frame. cbn [forallb snd]. rewrite !pad_length by lia. rewrite Nat.eqb_refl. cbn [andb]. eexists. split; [reflexivity|].
      unfold sheet_to_FR, read_excel. cbn [map fst snd]. destruct (pad_blanks n (map Num f)) as (k & ->). destruct (pad_blanks n (map Num r)) as (k' & ->). now rewrite !read_numbers, !clean_numbers.
    - eexists. split; [reflexivity|]. unfold sheet_to_FR, read_excel. cbn [map fst snd]. now rewrite read_numbers0, clean_numbers0.
  Qed.
  (** The same for whatever xlsx_to_FR itself read, texts included. *)
  Theorem C151_FR_again (s : sheet T) f r : sheet_to_FR parse s = Ok (f, r) ->
    exists s', FR_frame f r = Ok s' /\ sheet_to_FR parse s' = Ok (f, r).
  Proof.
    assert (forall l k, removeNaNs (read_column parse (removeNaNs (read_column parse l) ++ repeat (Txt "") k)) = removeNaNs (read_column parse l)) as G.
    { intros l k. set (g := fun c : cell T => match c with Txt s => negb (String.eqb s "nan") | Num _ => true | Missing => false end).
      assert (forall c, In c (removeNaNs (read_column parse l)) -> match c with Missing => False | Txt s => existsb (String.eqb s) na_values = false | Num _ => True end) as H1.
      { intros c Hc. unfold removeNaNs in Hc. apply filter_In in Hc. destruct Hc as [Hc Hk]. unfold read_column in Hc. cbv zeta in Hc.
        assert (forall d, In d (map read_cell l) -> match d with Txt s => existsb (String.eqb s) na_values = false | _ => True end) as H0.
        { intros d Hd. apply in_map_iff in Hd. destruct Hd as (e & <- & _). destruct e as [x|s0|]; cbn [read_cell]; auto. destruct (existsb (String.eqb s0) na_values) eqn:E; auto. }
        destruct c as [x|s0|]; [exact I| |discriminate Hk]. destruct (forallb (numeric parse) (map read_cell l)); [|exact (H0 _ Hc)]. apply in_map_iff in Hc. destruct Hc as (e & He & Hi). destruct e as [x|s1|]; cbn [to_number] in He; try discriminate He. specialize (H0 _ Hi). destruct (parse s1); congruence. }
      assert (forall m : list (cell T), (forall c, In c m -> match c with Missing => False | Txt s => existsb (String.eqb s) na_values = false | Num _ => True end) -> map read_cell (m ++ repeat (Txt "") k) = m ++ repeat Missing k /\ removeNaNs (m ++ repeat Missing k) = m) as H2.
      { clear. intros m Hm. split.
        - rewrite map_app, repeat_map. f_equal. rewrite <- (map_id m) at 2. apply map_ext_in. intros c Hc. specialize (Hm c Hc). destruct c as [x|s0|]; [reflexivity| |reflexivity]. cbn [read_cell]. now rewrite Hm.
        - unfold removeNaNs. rewrite filter_app. assert (filter (fun c : cell T => match c with Txt s => negb (String.eqb s "nan") | Num _ => true | Missing => false end) (repeat Missing k) = []) as -> by (induction k; auto). rewrite app_nil_r.
          induction m as [|c m IH]; [reflexivity|]. cbn [filter]. rewrite IH by (intros d Hd; apply Hm; now right). specialize (Hm c (or_introl eq_refl)). destruct c as [x|s0|]; [reflexivity| |contradiction]. destruct (String.eqb_spec s0 "nan") as [->|_]; [discriminate Hm|reflexivity]. }
      destruct (H2 _ H1) as [E1 E2]. unfold read_column at 1. cbv zeta. rewrite E1. destruct (forallb (numeric parse) (removeNaNs (read_column parse l) ++ repeat Missing k)) eqn:EF; [|exact E2].
      rewrite map_app, repeat_map. cbn [to_number]. assert (map (to_number parse) (removeNaNs (read_column parse l)) = removeNaNs (read_column parse l)) as ->; [|exact E2].
      rewrite forallb_app in EF. apply andb_prop in EF. destruct EF as [EF _]. rewrite forallb_forall in EF. rewrite <- (map_id (removeNaNs (read_column parse l))) at 2. apply map_ext_in. intros c Hc. pose proof (EF c Hc) as EFc. destruct c as [x|s0|]; try reflexivity. exfalso.
      pose proof (H1 _ Hc) as HN. unfold removeNaNs in Hc. apply filter_In in Hc. destruct Hc as [Hc Hk]. unfold read_column in Hc. cbv zeta in Hc. cbn [numeric] in EFc. destruct (forallb (numeric parse) (map read_cell l)) eqn:E3.
      - apply in_map_iff in Hc. destruct Hc as (e & He & Hi). destruct e as [x|s1|]; cbn [to_number] in He; try discriminate He. destruct (parse s1) eqn:E4; [discriminate He|]. injection He as ->. rewrite E4 in EFc. discriminate EFc.
      - assert (exists d, In d (map read_cell l) /\ numeric parse d = false) as (d & Hd & Hnum).
        { clear - E3. induction (map read_cell l) as [|d m IH]; [discriminate E3|]. cbn [forallb] in E3. destruct (numeric parse d) eqn:E; [|exists d; split; [now left|exact E]]. destruct (IH E3) as (e & He & Hn). exists e. split; [now right|exact Hn]. }
        assert (In d (removeNaNs (read_column parse l))) as Hd'.
        { unfold removeNaNs, read_column. cbv zeta. rewrite E3. apply filter_In. split; [exact Hd|]. apply in_map_iff in Hd. destruct Hd as (e & <- & _). destruct e as [x|s1|]; cbn [read_cell numeric] in Hnum |- *; try reflexivity; try discriminate Hnum. destruct (existsb (String.eqb s1) na_values) eqn:E4; [discriminate Hnum|]. destruct (String.eqb_spec s1 "nan") as [->|_]; [discriminate E4|reflexivity]. }
        specialize (EF d Hd'). congruence. }
    intros H. unfold sheet_to_FR in H. destruct (map snd (read_excel parse s)) as [|c0 [|c1 rest]] eqn:ES; [discriminate H| |].
    - injection H as <- <-. assert (exists l, c0 = read_column parse l) as (l & ->) by (destruct s as [|[t l] s]; [discriminate ES|]; exists l; cbn in ES; congruence).
      eexists. split; [reflexivity|]. unfold sheet_to_FR, read_excel. cbn [map fst snd]. pose proof (G l 0) as E. cbn [repeat] in E. rewrite app_nil_r in E. now rewrite E.
    - injection H as <- <-. assert (exists l l', c0 = read_column parse l /\ c1 = read_column parse l') as (l & l' & -> & ->) by (destruct s as [|[t l] [|[t' l'] s]]; try discriminate ES; exists l, l'; cbn in ES; split; congruence).
      unfold FR_frame. cbv zeta. set (n := Nat.max _ _). unfold data_frame. cbn [forallb snd]. rewrite !pad_length by lia. rewrite Nat.eqb_refl. cbn [andb]. eexists. split; [reflexivity|].
      unfold sheet_to_FR, read_excel. cbn [map fst snd]. destruct (pad_blanks n (removeNaNs (read_column parse l))) as (k & ->). destruct (pad_blanks n (removeNaNs (read_column parse l'))) as (k' & ->). now rewrite !G.
  Qed.
  (** FNRN data, as every converter to FNRN makes them. *)
  Theorem C151_FNRN (f : list T) (r : option (list T)) : let x := FR_to_FNRN leb f r in
    exists s, FNRN_frame of_int x = Ok s /\ sheet_to_FNRN leb trunc parse s = Ok x.
  Proof.
    cbv zeta. rewrite FR_to_FNRN_eq. unfold FNRN_frame. cbn [fn_right_censored fn_num_right_censored fn_failures fn_num_failures]. cbv zeta. pose proof (fr_fnrn_fr leb ord f r) as E. rewrite FR_to_FNRN_eq in E. cbn [fn_right_censored fn_num_right_censored fn_failures fn_num_failures] in E.
    assert (forall l, np_unique leb (isort leb l) = np_unique leb l) as U by (intros l; apply np_unique_perm; [exact ord|]; apply Permutation_sym, isort_perm).
    destruct (np_unique_canonical leb ord f) as (L & _).
    destruct r as [r|]; cbn [option_map] in *.
    - destruct (np_unique_canonical leb ord r) as (L' & _). set (n := Nat.max _ _). unfold data_frame. cbn [forallb snd]. rewrite !pad_with_length by (unfold n; rewrite ?map_length; lia). rewrite Nat.eqb_refl. cbn [andb]. eexists. split; [reflexivity|].
      rewrite !counts_map. unfold sheet_to_FNRN, read_excel. cbn [map fst snd].
      destruct (pad_with_blanks n (length (map Num (fst (np_unique leb f)))) (map Num (fst (np_unique leb f)))) as (k1 & ->). destruct (pad_with_blanks n (length (map Num (fst (np_unique leb f)))) (map Num (map of_int (snd (np_unique leb f))))) as (k2 & ->).
      destruct (pad_with_blanks n (length (map Num (fst (np_unique leb r)))) (map Num (fst (np_unique leb r)))) as (k3 & ->). destruct (pad_with_blanks n (length (map Num (fst (np_unique leb r)))) (map Num (map of_int (snd (np_unique leb r))))) as (k4 & ->).
      rewrite !read_numbers, !clean_numbers, !map_length, L, L', !Nat.eqb_refl. cbn [negb]. rewrite !numbers_ok. cbn [bind]. rewrite !(trunc_counts _ _ _ HW). unfold xlsx_to_FNRN. rewrite L, L', !Nat.eqb_refl. cbn [negb]. rewrite E. cbn [bind fr_failures fr_right_censored]. rewrite FR_to_FNRN_eq. cbn [option_map]. now rewrite !U.
    - unfold data_frame. cbn [forallb snd]. rewrite !map_length, L, Nat.eqb_refl. cbn [andb]. eexists. split; [reflexivity|]. rewrite !counts_map. unfold sheet_to_FNRN, read_excel. cbn [map fst snd].
      rewrite !read_numbers0, !clean_numbers0, !map_length, L, !Nat.eqb_refl. cbn [negb]. rewrite !numbers_ok. cbn [bind]. rewrite !(trunc_counts _ _ _ HW). unfold xlsx_to_FNRN. rewrite L, !Nat.eqb_refl. cbn [negb]. rewrite E. cbn [bind fr_failures fr_right_censored]. rewrite FR_to_FNRN_eq. cbn [option_map]. now rewrite !U.
  Qed.
  (** XCN data: the codes must both be texts or both numbers, be no texts pandas takes for something else, and be read with the
      meaning they were written with; and the codes asked for must be documented ones. Missing from the full statement:
      other codes, see below. *)
  Theorem C151_XCN_partial (f : list T) (r : option (list T)) cc fc ci fi co fo :
    same_kind fc cc -> survives parse fc -> survives parse cc -> means fi ci fc true -> means fi ci cc false -> same_kind fo co -> documented co fo ->
    exists s, XCN_frame of_int (FR_to_XCN leb f r cc fc) = Ok s /\ sheet_to_XCN leb exact trunc parse s ci fi co fo = Ok (FR_to_XCN leb f r co fo).
  Proof.
    intros K S1 S2 M1 M2 K' D. destruct (lengths_agree leb ord f r cc fc K) as [L1 L2]. unfold XCN_frame, data_frame. cbn [forallb snd]. rewrite !map_length, L1, L2, Nat.eqb_refl. cbn [andb]. eexists. split; [reflexivity|].
    unfold sheet_to_XCN, read_excel. cbn [map fst snd]. rewrite counts_map.
    assert (Forall (survives parse) (xcn_C (FR_to_XCN leb f r cc fc))) as HS by (rewrite columns by exact K; cbn [xcn_C]; apply Forall_app; split; apply Forall_forall; intros c Hc; apply repeat_spec in Hc; now subst c).
    rewrite !read_numbers0, !clean_numbers0, !numbers_ok, (read_codes _ parse _ HS), (clean_codes _ parse _ HS), (codes_of _ _ _ HW). cbn [bind]. rewrite (trunc_counts _ _ _ HW). exact (round_trip leb ord f r cc fc ci fi co fo K M1 M2 K' D).
  Qed.
  (** In particular with the default codes throughout. *)
  Theorem C151_XCN_default (f : list T) (r : option (list T)) : parse "C" = None -> parse "F" = None -> let x := FR_to_XCN leb f r (CStr "C") (CStr "F") in
    exists s, XCN_frame of_int x = Ok s /\ sheet_to_XCN leb exact trunc parse s None None (CStr "C") (CStr "F") = Ok x.
  Proof.
    intros P1 P2. apply C151_XCN_partial; try reflexivity.
    - split; [|exact P2]. intros H. cbn in H. repeat (destruct H as [H|H]; [discriminate H|]). exact H.
    - split; [|exact P1]. intros H. cbn in H. repeat (destruct H as [H|H]; [discriminate H|]). exact H.
    - right. split; [discriminate|now left].
    - split; [discriminate|]. right. cbn. tauto.
    - split; cbn; tauto.
  Qed.

  (** ** C152 *)
  Lemma read_times (l : list (option T)) : removeNaNs (read_column parse (times l)) = map Num (present l).
  Proof.
    assert (read_column parse (times l) = times l) as ->.
    { unfold read_column. cbv zeta. assert (forall g, (forall x, g (Num x) = Num x) -> g Missing = Missing -> map g (times l) = times l) as G by (intros g G1 G2; unfold times; rewrite map_map; apply map_ext; intros [x|]; auto). rewrite (G read_cell) by reflexivity. rewrite (G (to_number parse)) by reflexivity. now destruct (forallb _ _). }
    induction l as [|[x|] l IH]; [reflexivity| |exact IH]. cbn [times map present]. cbn [removeNaNs filter]. f_equal. exact IH.
  Qed.
  Lemma counts_times (l : list (option Z)) : counts of_int l = times (column of_int l) /\ present (column of_int l) = map of_int (present l).
  Proof. split; [unfold counts, times, column; rewrite map_map; apply map_ext; now intros [n|]|]. induction l as [|[n|] l IH]; [reflexivity| |exact IH]. cbn. f_equal. exact IH. Qed.
  Lemma read_counts (l : list (option Z)) : removeNaNs (read_column parse (counts of_int l)) = map Num (map of_int (present l)).
  Proof. destruct (counts_times l) as [-> E]. now rewrite read_times, E. Qed.
  Lemma read_labels (l : list (option code)) : Forall (survives parse) (present l) -> removeNaNs (read_column parse (labels of_int l)) = map (code_cell of_int) (present l).
  Proof.
    intros H. assert (forall m, Forall (survives parse) (present m) -> map read_cell (labels of_int m) = labels of_int m /\ map (to_number parse) (labels of_int m) = labels of_int m) as G.
    { clear. induction m as [|[[s|n]|] m IH]; intros H; [split; reflexivity| | |]; cbn [present] in H.
      - inversion H as [|? ? H12 H3]; subst. destruct H12 as [H1 H2]. destruct (IH H3) as [E1 E2]. cbn [labels map read_cell to_number]. fold (labels of_int m). rewrite E1, E2, H2. split; [|reflexivity]. destruct (existsb (String.eqb s) na_values) eqn:E; [|reflexivity]. apply existsb_exists in E. destruct E as (t & Ht & E). apply String.eqb_eq in E. subst t. contradiction.
      - inversion H as [|? ? _ H3]; subst. destruct (IH H3) as [E1 E2]. cbn [labels map read_cell to_number]. fold (labels of_int m). rewrite E1, E2. split; reflexivity.
      - destruct (IH H) as [E1 E2]. cbn [labels map read_cell to_number]. fold (labels of_int m). rewrite E1, E2. split; reflexivity. }
    destruct (G l H) as [E1 E2]. assert (read_column parse (labels of_int l) = labels of_int l) as -> by (unfold read_column; cbv zeta; rewrite E1, E2; now destruct (forallb _ _)).
    clear G E1 E2. induction l as [|[[s|n]|] l IH]; [reflexivity| | |]; cbn [present] in H.
    - inversion H as [|? ? H12 H3]; subst. destruct H12 as [H1 H2]. cbn [labels map present code_cell]. cbn [removeNaNs filter]. destruct (String.eqb_spec s "nan") as [->|_]; [exfalso; apply H1; cbn; tauto|]. cbn [negb]. f_equal. exact (IH H3).
    - inversion H as [|? ? _ H3]; subst. cbn [labels map present code_cell]. cbn [removeNaNs filter]. f_equal. exact (IH H3).
    - exact (IH H).
  Qed.
  Lemma present_column {A B} (g : A -> B) rows : present (column g rows) = map g (present rows).
  Proof. induction rows as [|[a|] rows IH]; [reflexivity| |exact IH]. cbn. f_equal. exact IH. Qed.

  (** FR: each entry of a column is one item, blanks wherever they are are left out. *)
  Theorem C152_FR (f r : list (option T)) :
    sheet_to_FR parse (titled [times f]) = Ok (map Num (present f), None) /\
    sheet_to_FR parse (titled [times f; times r]) = Ok (map Num (present f), Some (map Num (present r))).
  Proof. unfold sheet_to_FR, read_excel, titled. cbn [map fst snd]. now rewrite !read_times. Qed.
  (** XCN: where every row is complete or blank, each complete row is that many observations and there are no others.
      Missing from the full statement: rows with some entries missing, see below. *)
  Theorem C152_XCN_partial (rows : list (option (T * code * Z))) ci fi co fo is_failure x :
    let time r := fst (fst r) in let label r := snd (fst r) in let number r := snd r in
    Forall (fun r => survives parse (label r)) (present rows) ->
    documented co fo -> same_kind fo co -> is_failure fo = true -> is_failure co = false ->
    sheet_to_XCN leb exact trunc parse (titled [times (column time rows); labels of_int (column label rows); counts of_int (column number rows)]) ci fi co fo = Ok x ->
    exists failed, Forall2 (means fi ci) (map label (present rows)) failed /\
      Permutation (xcn_obs is_failure (xcn_X x) (xcn_C x) (xcn_N x)) (copies (combine (map time (present rows)) failed) (map number (present rows))).
  Proof.
    intros time label number HS [D1 D2] K I1 I2 H. unfold sheet_to_XCN, read_excel, titled in H. cbn [map fst snd] in H. rewrite read_times, read_counts, read_labels in H by (rewrite present_column; apply Forall_map; exact HS).
    rewrite !present_column, !numbers_ok, (codes_of _ _ _ HW) in H. cbn [bind] in H. rewrite (trunc_counts _ _ _ HW) in H. exact (xlsx_to_XCN_meaning_doc leb ord _ _ _ ci fi co fo is_failure x D1 D2 K I1 I2 H).
  Qed.
  (** FNRN: the same for the pairs of columns. *)
  Theorem C152_FNRN_partial (rows : list (option (T * Z))) (rows' : list (option (T * Z))) x :
    sheet_to_FNRN leb trunc parse (titled [times (column fst rows); counts of_int (column snd rows); times (column fst rows'); counts of_int (column snd rows')]) = Ok x ->
    Permutation (fnrn_obs (fn_failures x) (fn_num_failures x) (fn_right_censored x) (fn_num_right_censored x))
      (fnrn_obs (map fst (present rows)) (map snd (present rows)) (Some (map fst (present rows'))) (Some (map snd (present rows')))).
  Proof.
    intros H. unfold sheet_to_FNRN, read_excel, titled in H. cbn [map fst snd] in H. rewrite !read_times, !read_counts, !present_column, !map_length, !Nat.eqb_refl in H. cbn [negb] in H. rewrite !numbers_ok in H. cbn [bind] in H. rewrite !(trunc_counts _ _ _ HW) in H.
    unfold xlsx_to_FNRN in H. rewrite !map_length, !Nat.eqb_refl in H. cbn [negb] in H. destruct (FNRN_to_FR _ _ _ _) as [fr|e] eqn:E; [|discriminate H]. cbn [bind] in H. injection H as <-.
    destruct (conversions_preserve leb ord) as (P1 & P2 & _). rewrite (P1 (fr_failures fr) (fr_right_censored fr)). exact (P2 _ _ _ _ _ E).
  Qed.
  (** Different numbers of entries in the columns are refused. *)
  Theorem C152_lengths (X : list (option T)) (C : list (option code)) (N : list (option Z)) (X' : list (option T)) (N' : list (option Z)) ci fi co fo :
    Forall (survives parse) (present C) ->
    (length (present X) <> length (present C) \/ length (present X) <> length (present N) -> sheet_to_XCN leb exact trunc parse (titled [times X; labels of_int C; counts of_int N]) ci fi co fo = Err ValueError) /\
    (length (present X) <> length (present N) -> sheet_to_FNRN leb trunc parse (titled [times X; counts of_int N]) = Err ValueError) /\
    (length (present X) <> length (present N) \/ length (present X') <> length (present N') -> sheet_to_FNRN leb trunc parse (titled [times X; counts of_int N; times X'; counts of_int N']) = Err ValueError).
  Proof.
    intros HS. split; [|split].
    - intros HL. unfold sheet_to_XCN, read_excel, titled. cbn [map fst snd]. rewrite read_times, read_counts, read_labels by exact HS. rewrite !numbers_ok, (codes_of _ _ _ HW). cbn [bind]. rewrite (trunc_counts _ _ _ HW). unfold xlsx_to_XCN. cbv zeta. destruct (2 <? _)%nat; [reflexivity|].
      destruct (recode _ _ fo co _) as [C_out|e] eqn:E; cbn [bind].
      + apply recode_inv in E. destruct E as (flags & HF & ->). apply Forall2_len in HF. rewrite map_length in HF. assert (forall l, length (np_coerce l) = length l) as Hc by (intros l; unfold np_coerce; destruct (existsb _ _); [apply map_length|reflexivity]). rewrite Hc, map_length, <- HF.
        destruct (Nat.eqb_spec (length (present X)) (length (present C))), (Nat.eqb_spec (length (present X)) (length (present N))); cbn [negb orb]; try reflexivity. tauto.
      + assert (forall fi ci fo co l e, recode fi ci fo co l = Err e -> e = ValueError) as G.
        { clear. intros fi ci fo co. induction l as [|c l IH]; intros e; cbn [recode]; [discriminate|]. destruct (classify fi ci c) as [[]|]; [| |congruence]; destruct (recode fi ci fo co l) as [o|e'] eqn:E; cbn [bind]; try discriminate; intros H; injection H as <-; exact (IH _ eq_refl). }
        apply G in E. now subst e.
    - intros HL. unfold sheet_to_FNRN, read_excel, titled. cbn [map fst snd]. rewrite !read_times, !read_counts, !map_length. destruct (Nat.eqb_spec (length (present X)) (length (present N))); [contradiction|reflexivity].
    - intros HL. unfold sheet_to_FNRN, read_excel, titled. cbn [map fst snd]. rewrite !read_times, !read_counts, !map_length. destruct (Nat.eqb_spec (length (present X)) (length (present N))); [|reflexivity]. cbn [negb]. destruct (Nat.eqb_spec (length (present X')) (length (present N'))); [tauto|reflexivity].
  Qed.
End S.
Print Assumptions C151_FR.
Print Assumptions C151_FR_again.
Print Assumptions C151_FNRN.
Print Assumptions C151_XCN_partial.
Print Assumptions C151_XCN_default.
Print Assumptions C152_FR.
Print Assumptions C152_XCN_partial.
Print Assumptions C152_FNRN_partial.
Print Assumptions C152_lengths.

(** ** Cases: whole numbers as times *)
Open Scope string_scope.
Open Scope list_scope.
Open Scope Z_scope.
Lemma Z_whole : whole_numbers (fun n : Z => n) (fun n => Some n) (fun n => n).
Proof. intros n. split; reflexivity. Qed.
Lemma Z_order : total_order Z.leb.
Proof. constructor; intros *; rewrite ?Z.leb_le; lia. Qed.
Notation write_XCN := (XCN_frame (fun n : Z => n)).
Notation read_XCN := (sheet_to_XCN Z.leb (fun n : Z => Some n) (fun n => n) (fun _ => None)).
Example C151_case : same_kind (CStr "f") (CStr "susp") /\ survives (fun _ : string => @None Z) (CStr "susp") /\ means None None (CStr "f") true /\ means None None (CStr "susp") false /\ documented (CNum 1) (CNum 0) /\
  exists s, write_XCN (FR_to_XCN Z.leb [5; 3; 5] (Some [9]) (CStr "susp") (CStr "f")) = Ok s /\ read_XCN s None None (CNum 1) (CNum 0) = Ok (mkXCN [3; 5; 9] [CNum 0; CNum 0; CNum 1] [1; 2; 1]).
Proof.
  split; [reflexivity|]. split; [split; [intros H; cbn in H; repeat (destruct H as [H|H]; [discriminate H|]); exact H|reflexivity]|]. split; [right; split; [discriminate|now left]|]. split; [split; [discriminate|]; right; cbn; tauto|]. split; [split; cbn; tauto|].
  eexists. split; vm_compute; reflexivity.
Qed.
Example C152_case : sheet_to_XCN Z.leb (fun n : Z => Some n) (fun n => n) (fun _ => None) (titled [times [Some 5; None; Some 9]; labels (fun n => n) [Some (CStr "f"); None; Some (CStr "susp")]; counts (fun n => n) [Some 2; None; Some 1]]) None None (CStr "C") (CStr "F")
  = Ok (mkXCN [5; 9] [CStr "F"; CStr "C"] [2; 1]).
Proof. vm_compute. reflexivity. Qed.

(** A text and a number as codes: numpy makes texts of both, and the number is not recognised. *)
Theorem C151_mixed_refuted : exists f r cc fc s, In (code_upper fc) documented_failure_codes /\ In (code_upper cc) documented_censored_codes /\ survives (fun _ : string => @None Z) cc /\
  write_XCN (FR_to_XCN Z.leb f (Some r) cc fc) = Ok s /\ read_XCN s (Some cc) (Some fc) (CStr "C") (CStr "F") = Err ValueError.
Proof.
  exists [5], [9], (CStr "C"), (CNum 0). eexists. split; [cbn; tauto|]. split; [cbn; tauto|]. split; [split; [intros H; cbn in H; repeat (destruct H as [H|H]; [discriminate H|]); exact H|reflexivity]|]. split; vm_compute; reflexivity.
Qed.
(** A code that pandas takes for a missing value. *)
Theorem C151_missing_refuted : exists f r cc fc s, same_kind fc cc /\ write_XCN (FR_to_XCN Z.leb f (Some r) cc fc) = Ok s /\ read_XCN s (Some cc) (Some fc) (CStr "C") (CStr "F") = Err ValueError.
Proof. exists [5], [9], (CStr "NA"), (CStr "F"). eexists. split; [reflexivity|]. split; vm_compute; reflexivity. Qed.
(** Codes of one's own cannot be kept. *)
Theorem C151_own_codes_refuted : exists f r cc fc s, same_kind fc cc /\ survives (fun _ : string => @None Z) fc /\ survives (fun _ : string => @None Z) cc /\ code_upper fc <> code_upper cc /\
  write_XCN (FR_to_XCN Z.leb f (Some r) cc fc) = Ok s /\ read_XCN s (Some cc) (Some fc) cc fc = Err ValueError.
Proof.
  exists [5], [9], (CStr "ok"), (CStr "broken"). eexists. split; [reflexivity|]. split; [split; [intros H; cbn in H; repeat (destruct H as [H|H]; [discriminate H|]); exact H|reflexivity]|]. split; [split; [intros H; cbn in H; repeat (destruct H as [H|H]; [discriminate H|]); exact H|reflexivity]|]. split; [discriminate|]. split; vm_compute; reflexivity.
Qed.
(** Blanks in different rows: the remaining entries are shifted, and an observation is read that no row has. *)
Theorem C152_XCN_rows_refuted : exists X C N x,
  C = [Some (CStr "F"); Some (CStr "C"); None] /\ X = [Some 10; None; Some 30] /\ N = [Some 1; Some 1; None] /\
  read_XCN (titled [times X; labels (fun n => n) C; counts (fun n => n) N]) None None (CStr "C") (CStr "F") = Ok x /\
  In (30, false) (xcn_obs (fun c => code_eqb c (CStr "F")) (xcn_X x) (xcn_C x) (xcn_N x)) /\ forall i, nth_error X i = Some (Some 30) -> nth_error C i <> Some (Some (CStr "C")).
Proof.
  eexists _, _, _, _. split; [reflexivity|]. split; [reflexivity|]. split; [reflexivity|]. split; [vm_compute; reflexivity|]. split; [vm_compute; tauto|].
  intros [|[|[|i]]]; cbn; try discriminate. destruct i; discriminate.
Qed.
Theorem C152_FNRN_rows_refuted : exists f nf x,
  f = [Some 10; None; Some 30] /\ nf = [None; Some 5; Some 1] /\
  sheet_to_FNRN Z.leb (fun n => n) (fun _ => None) (titled [times f; counts (fun n => n) nf]) = Ok x /\ fn_failures x = [10; 30] /\ fn_num_failures x = [5; 1].
Proof. eexists _, _, _. split; [reflexivity|]. split; [reflexivity|]. split; [vm_compute; reflexivity|]. split; reflexivity. Qed.
Print Assumptions C151_mixed_refuted.
Print Assumptions C151_missing_refuted.
Print Assumptions C151_own_codes_refuted.
Print Assumptions C152_XCN_rows_refuted.
Print Assumptions C152_FNRN_rows_refuted.
(** Cells holding a text for a missing value are dropped and the numbers are kept, in order. *)
Theorem C152_missing_texts : forall {T} (parse : string -> option T) (l : list (T + string)),
  (forall s, In (inr s) l -> In s missing_texts) -> removeNaNs (read_column parse (with_texts l)) = map Num (lefts l).
Proof.
  intros T parse l H.
  assert (map read_cell (with_texts l) = map (fun e => match e with inl x => Num x | inr _ => Missing end) l) as E.
  { unfold with_texts. rewrite map_map. apply map_ext_in. intros [x|s] Hs; [reflexivity|]. cbn [read_cell].
    assert (existsb (String.eqb s) na_values = true) as ->; [|reflexivity].
    apply existsb_exists. exists s. split; [exact (H s Hs)|apply String.eqb_refl]. }
  unfold read_column. cbv zeta. rewrite E. clear E H.
  assert (forallb (numeric parse) (map (fun e : T + string => match e with inl x => Num x | inr _ => Missing end) l) = true) as ->.
  { induction l as [|[x|s] l IH]; [reflexivity| |]; cbn; exact IH. }
  rewrite map_map. unfold removeNaNs. induction l as [|[x|s] l IH]; [reflexivity| |]; cbn; rewrite IH; reflexivity.
Qed.
Print Assumptions C152_missing_texts.
