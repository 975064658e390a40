(** Lemmas about sheets. *)
From Coq Require Import String Ascii.
From Coq Require Import List Arith ZArith Bool Lia Permutation Sorted.
From Verif Require Import Base ConvertModel ConvertSpec ConvertProofs SheetModel SheetSpec.
Import ListNotations.
Open Scope list_scope.

Section S.
  Context {T : Type} (leb : T -> T -> bool) (ord : total_order leb) (of_int : Z -> T) (exact : T -> option Z) (trunc : T -> Z) (parse : string -> option T).
  Context (HW : whole_numbers of_int exact trunc).
  Notation rc := (read_column parse).

  Lemma repeat_map {A B} (g : A -> B) a n : map g (repeat a n) = repeat (g a) n.
  Proof. induction n; cbn; congruence. Qed.
  (** A column of numbers and blanks. *)
  Lemma read_numbers (l : list T) k : rc (map Num l ++ repeat (Txt "") k) = map Num l ++ repeat Missing k.
  Proof.
    unfold read_column. cbv zeta. rewrite map_app, map_map, repeat_map. cbn [read_cell]. change (existsb (String.eqb "") na_values) with true. cbv iota.
    destruct (forallb _ _); [|reflexivity]. rewrite map_app, map_map, repeat_map. reflexivity.
  Qed.
  Lemma read_numbers0 (l : list T) : rc (map Num l) = map Num l.
  Proof. pose proof (read_numbers l 0) as H. cbn [repeat] in H. now rewrite !app_nil_r in H. Qed.
  Lemma clean_numbers (l : list T) k : removeNaNs (map Num l ++ repeat Missing k) = map Num l.
  Proof.
    unfold removeNaNs. rewrite filter_app. assert (filter (fun c : cell T => match c with Txt s => negb (String.eqb s "nan") | Num _ => true | Missing => false end) (repeat Missing k) = []) as -> by (induction k; auto).
    rewrite app_nil_r. induction l as [|x l IH]; cbn; congruence.
  Qed.
  Lemma clean_numbers0 (l : list T) : removeNaNs (map Num l) = map Num l.
  Proof. pose proof (clean_numbers l 0) as H. cbn [repeat] in H. now rewrite app_nil_r in H. Qed.
  Lemma numbers_ok (l : list T) : numbers (map Num l) = Ok l.
  Proof. induction l as [|x l IH]; [reflexivity|]. cbn [map numbers]. rewrite IH. reflexivity. Qed.
  Lemma counts_map (l : list Z) : map (fun n => Num (of_int n)) l = map Num (map of_int l).
  Proof. now rewrite map_map. Qed.
  Lemma trunc_counts (l : list Z) : map trunc (map of_int l) = l.
  Proof. rewrite map_map. rewrite <- (map_id l) at 2. apply map_ext. intros n. apply HW. Qed.
  Lemma pad_length n (l : list (cell T)) : length l <= n -> length (pad n l) = n.
  Proof. intros H. unfold pad. destruct (Nat.eqb_spec n (length l)) as [->|]; [reflexivity|]. rewrite app_length, repeat_length. lia. Qed.
  Lemma pad_blanks n (l : list (cell T)) : exists k, pad n l = l ++ repeat (Txt "") k.
  Proof. unfold pad. destruct (n =? length l); [exists 0; cbn; now rewrite app_nil_r|eexists; reflexivity]. Qed.
  Lemma pad_with_length n (l l' : list (cell T)) : length l' = length l -> length l <= n -> length (pad_with n (length l) l') = n.
  Proof. intros H1 H. unfold pad_with. destruct (Nat.eqb_spec n (length l)) as [->|]; [exact H1|]. rewrite app_length, repeat_length. lia. Qed.
  Lemma pad_with_blanks n m (l : list (cell T)) : exists k, pad_with n m l = l ++ repeat (Txt "") k.
  Proof. unfold pad_with. destruct (n =? m); [exists 0; cbn; now rewrite app_nil_r|eexists; reflexivity]. Qed.

  (** A column of codes. *)
  Lemma read_codes (C : list code) : Forall (survives parse) C -> rc (map (code_cell of_int) C) = map (code_cell of_int) C.
  Proof.
    intros H. unfold read_column. cbv zeta. assert (map read_cell (map (code_cell of_int) C) = map (code_cell of_int) C) as ->.
    { rewrite map_map. apply map_ext_in. intros c Hc. rewrite Forall_forall in H. specialize (H c Hc). destruct c as [s|n]; [|reflexivity]. cbn [code_cell read_cell]. destruct (existsb (String.eqb s) na_values) eqn:E; [|reflexivity].
      apply existsb_exists in E. destruct E as (t & Ht & E). apply String.eqb_eq in E. subst t. destruct H as [H _]. contradiction. }
    destruct (forallb _ _); [|reflexivity]. rewrite map_map. apply map_ext_in. intros c Hc. rewrite Forall_forall in H. specialize (H c Hc). destruct c as [s|n]; [|reflexivity]. cbn [code_cell to_number]. destruct H as [_ ->]. reflexivity.
  Qed.
  Lemma clean_codes (C : list code) : Forall (survives parse) C -> removeNaNs (map (code_cell of_int) C) = map (code_cell of_int) C.
  Proof.
    induction 1 as [|c C Hc _ IH]; [reflexivity|]. cbn [map removeNaNs filter]. unfold removeNaNs in IH. destruct c as [s|n]; cbn [code_cell].
    - destruct (String.eqb_spec s "nan") as [->|_]; [exfalso; apply Hc; cbn; tauto|]. cbn [negb]. now rewrite IH.
    - now rewrite IH.
  Qed.
  Lemma codes_of (C : list code) : codes exact (map (code_cell of_int) C) = Ok C.
  Proof. induction C as [|c C IH]; [reflexivity|]. destruct c as [s|n]; cbn [map code_cell codes]; [rewrite IH; reflexivity|]. rewrite (proj1 (HW n)), IH. reflexivity. Qed.

  Lemma recode_app fi ci fo co C1 C2 o1 o2 : recode fi ci fo co C1 = Ok o1 -> recode fi ci fo co C2 = Ok o2 -> recode fi ci fo co (C1 ++ C2) = Ok (o1 ++ o2).
  Proof.
    revert o1. induction C1 as [|c C1 IH]; cbn [recode app]; intros o1 H1 H2.
    - injection H1 as <-. exact H2.
    - destruct (classify fi ci c) as [[]|]; [| |discriminate]; destruct (recode fi ci fo co C1) as [o|]; cbn in H1 |- *; try discriminate; injection H1 as <-; rewrite (IH o eq_refl H2); reflexivity.
  Qed.
  Lemma recode_repeat fi ci fo co c (b : bool) n : classify fi ci c = Some b -> recode fi ci fo co (repeat c n) = Ok (repeat (if b then fo else co) n).
  Proof. intros H. induction n as [|n IH]; [reflexivity|]. cbn [repeat recode]. rewrite H, IH. destruct b; reflexivity. Qed.

  (** The columns of FR_to_XCN. *)
  Definition cens (r : option (list T)) : list T * list Z := match r with Some l => np_unique leb l | None => ([], []) end.
  Lemma columns f r cc fc : same_kind fc cc -> FR_to_XCN leb f r cc fc = mkXCN (fst (np_unique leb f) ++ fst (cens r)) (repeat fc (length (fst (np_unique leb f))) ++ repeat cc (length (fst (cens r)))) (snd (np_unique leb f) ++ snd (cens r)).
  Proof.
    intros H. unfold FR_to_XCN, fnrn_columns. rewrite FR_to_FNRN_eq. cbn [fn_right_censored fn_num_right_censored fn_failures fn_num_failures]. destruct r as [l|]; cbn [option_map cens fst snd].
    - now rewrite np_coerce_same.
    - cbn [length repeat]. now rewrite !app_nil_r.
  Qed.
  Lemma lengths_agree f r cc fc : same_kind fc cc -> let x := FR_to_XCN leb f r cc fc in length (xcn_C x) = length (xcn_X x) /\ length (xcn_N x) = length (xcn_X x).
  Proof.
    intros H. cbv zeta. rewrite columns by assumption. cbn [xcn_X xcn_C xcn_N]. rewrite !app_length, !repeat_length. destruct (np_unique_canonical leb ord f) as (L & _). rewrite L. split; [reflexivity|]. f_equal.
    destruct r as [l|]; [|reflexivity]. destruct (np_unique_canonical leb ord l) as (L' & _). cbn [cens]. now rewrite L'.
  Qed.
  Lemma same_columns f r cc fc : same_kind fc cc -> FR_to_XCN leb (isort leb f) (none_if_empty (option_map (isort leb) r)) cc fc = FR_to_XCN leb f r cc fc.
  Proof.
    intros H. rewrite !columns by assumption. assert (forall l, np_unique leb (isort leb l) = np_unique leb l) as U by (intros l; apply np_unique_perm; [exact ord|]; apply Permutation_sym, isort_perm).
    assert (cens (none_if_empty (option_map (isort leb) r)) = cens r) as ->; [|now rewrite U].
    destruct r as [l|]; [|reflexivity]. cbn [option_map]. destruct (isort leb l) as [|x q] eqn:E.
    - apply isort_nil_iff in E. subst l. reflexivity.
    - cbn [none_if_empty cens]. rewrite <- E. apply U.
  Qed.
  Lemma round_trip f r cc fc ci fi co fo : same_kind fc cc -> means fi ci fc true -> means fi ci cc false -> same_kind fo co -> documented co fo ->
    let x := FR_to_XCN leb f r cc fc in xlsx_to_XCN leb (xcn_X x) (xcn_C x) (Some (xcn_N x)) ci fi co fo = Ok (FR_to_XCN leb f r co fo).
  Proof.
    intros K M1 M2 K' [D1 D2]. cbv zeta. destruct (lengths_agree f r cc fc K) as [L1 L2]. unfold xlsx_to_XCN. cbv zeta.
    assert (xcn_C (FR_to_XCN leb f r cc fc) = repeat fc (length (fst (np_unique leb f))) ++ repeat cc (length (fst (cens r)))) as EC by (rewrite columns by assumption; reflexivity).
    assert (at_most_two_codes (xcn_C (FR_to_XCN leb f r cc fc))) as A2 by (rewrite EC, <- np_coerce_same by exact K; apply at_most_two_repeat). apply n_unique_le2 in A2.
    destruct (Nat.ltb_spec 2 (n_unique_codes (map code_upper (xcn_C (FR_to_XCN leb f r cc fc))))) as [A3|_]; [lia|].
    pose proof (proj2 (forall2_upper fi ci [fc; cc] [true; false]) (Forall2_cons _ _ M1 (Forall2_cons _ _ M2 (Forall2_nil _)))) as HF. inversion HF as [|? ? ? ? F1 HF2]; subst. inversion HF2 as [|? ? ? ? F2 _]; subst.
    rewrite EC, map_app, !repeat_map. rewrite (recode_app _ _ _ _ _ _ _ _ (recode_repeat _ _ fo co _ _ _ F1) (recode_repeat _ _ fo co _ _ _ F2)). cbn [bind]. cbv iota. rewrite np_coerce_same by exact K'.
    rewrite EC in L1. rewrite L2, Nat.eqb_refl. cbn [negb orb].
    assert (xcn_X (FR_to_XCN leb f r cc fc) = xcn_X (FR_to_XCN leb f r co fo) /\ xcn_N (FR_to_XCN leb f r cc fc) = xcn_N (FR_to_XCN leb f r co fo)) as [EX EN] by (rewrite !columns by assumption; split; reflexivity).
    assert (repeat fo (length (fst (np_unique leb f))) ++ repeat co (length (fst (cens r))) = xcn_C (FR_to_XCN leb f r co fo)) as EO by (rewrite columns by assumption; reflexivity).
    rewrite EO. rewrite <- L1. replace (length (repeat fc (length (fst (np_unique leb f))) ++ repeat cc (length (fst (cens r))))) with (length (xcn_C (FR_to_XCN leb f r co fo))) by (rewrite <- EO, !app_length, !repeat_length; reflexivity).
    rewrite Nat.eqb_refl. cbn [negb orb]. rewrite EX, EN.
    assert (means None None fo true) as N1 by (right; split; [discriminate|exact D1]). assert (means None None co false) as N2 by (split; [discriminate|right; exact D2]).
    rewrite (read_fnrn_columns leb ord None None fo co f r N1 N2 K'). cbn [bind fr_failures fr_right_censored]. rewrite same_columns by exact K'. reflexivity.
  Qed.
End S.
