(** Properties C01 - C07: the data format converters. *)
From Coq Require Import List Arith ZArith Bool Permutation Sorted String.
From Verif Require Import Base ConvertModel ConvertSpec ConvertProofs.
Import ListNotations.
Local Open Scope list_scope.

(** C01: FR -> XCN -> FR gives back exactly the data, sorted (an empty censored list
    becomes "no censored data"). *)
Theorem C01_FR_XCN_FR {T} (leb : T -> T -> bool) (ord : total_order leb)
    (failures : list T) (right_censored : option (list T)) (censor_code failure_code : code) :
  codes_ok censor_code failure_code ->
  let x := FR_to_XCN leb failures right_censored censor_code failure_code in
  exists f r,
    XCN_to_FR (xcn_X x) (xcn_C x) (Some (xcn_N x)) (Some censor_code) (Some failure_code)
      = Ok (mkFR f r) /\
    Permutation f failures /\ sorted leb f /\
    Permutation (opt_list r) (opt_list right_censored) /\ sorted leb (opt_list r) /\
    (r = None <-> opt_list right_censored = []).
Proof. exact (fr_xcn_fr_spec leb ord failures right_censored censor_code failure_code). Qed.
Print Assumptions C01_FR_XCN_FR.

Example C01_hypotheses :
  codes_ok (CStr "c") (CStr "Failed") /\
  (let x := FR_to_XCN Nat.leb [5;3;5;9] (Some [7;2;2]) (CStr "c") (CStr "Failed") in
   XCN_to_FR (xcn_X x) (xcn_C x) (Some (xcn_N x)) (Some (CStr "c")) (Some (CStr "Failed"))
   = Ok (mkFR [3;5;5;9] (Some [2;2;7]))).
Proof. repeat split; discriminate || reflexivity. Qed.

(** C02: FR -> FNRN -> FR likewise. *)
Theorem C02_FR_FNRN_FR {T} (leb : T -> T -> bool) (ord : total_order leb)
    (failures : list T) (right_censored : option (list T)) :
  let x := FR_to_FNRN leb failures right_censored in
  exists f r,
    FNRN_to_FR (fn_failures x) (fn_num_failures x)
      (fn_right_censored x) (fn_num_right_censored x) = Ok (mkFR f r) /\
    Permutation f failures /\ sorted leb f /\
    Permutation (opt_list r) (opt_list right_censored) /\ sorted leb (opt_list r) /\
    (r = None <-> right_censored = None).
Proof. exact (fr_fnrn_fr_spec leb ord failures right_censored). Qed.
Print Assumptions C02_FR_FNRN_FR.

Example C02_case :
  let x := FR_to_FNRN Nat.leb [5;3;5;9] (Some [7;2;2]) in
  x = mkFNRN [3;5;9] [1;2;1]%Z (Some [2;7]) (Some [2;1]%Z).
Proof. reflexivity. Qed.

(** C03: FR_to_FNRN lists every distinct value once, in increasing order, with its
    number of occurrences. *)
Theorem C03_FNRN_canonical {T} (leb : T -> T -> bool) (ord : total_order leb)
    (failures rc : list T) :
  let x := FR_to_FNRN leb failures (Some rc) in
  exists r nr, fn_right_censored x = Some r /\ fn_num_right_censored x = Some nr /\
    canonical leb (fn_failures x) (fn_num_failures x) /\ canonical leb r nr /\
    (forall v, In v failures <-> In v (fn_failures x)) /\ (forall v, In v rc <-> In v r) /\
    (forall v n, In (v, n) (combine (fn_failures x) (fn_num_failures x)) ->
       Z.of_nat (List.length (filter (eqb leb v) failures)) = n) /\
    (forall v n, In (v, n) (combine r nr) ->
       Z.of_nat (List.length (filter (eqb leb v) rc)) = n) /\
    fold_right Z.add 0%Z (fn_num_failures x) = Z.of_nat (List.length failures) /\
    fold_right Z.add 0%Z nr = Z.of_nat (List.length rc).
Proof. exact (fnrn_canonical_spec leb ord failures rc). Qed.
Print Assumptions C03_FNRN_canonical.

(** C04: FNRN -> XCN -> FNRN is the identity on canonical data. *)
Theorem C04_FNRN_XCN_FNRN {T} (leb : T -> T -> bool) (ord : total_order leb)
    (f : list T) (nf : list Z) (r : option (list T)) (nr : option (list Z))
    (censor_code failure_code : code) :
  codes_ok censor_code failure_code -> canonical leb f nf ->
  match r, nr with
  | Some l, Some m => l <> [] /\ canonical leb l m
  | None, None => True
  | _, _ => False
  end ->
  exists x, FNRN_to_XCN leb f nf r nr censor_code failure_code = Ok x /\
    XCN_to_FNRN leb (xcn_X x) (xcn_C x) (Some (xcn_N x)) (Some censor_code) (Some failure_code)
    = Ok (mkFNRN f nf r nr).
Proof. exact (fnrn_xcn_fnrn leb ord f nf r nr censor_code failure_code). Qed.
Print Assumptions C04_FNRN_XCN_FNRN.

Example C04_hypotheses :
  codes_ok (CNum 1) (CNum 0) /\ canonical Nat.leb [3;5] [2;7]%Z /\
  ([4] <> [] /\ canonical Nat.leb [4] [3]%Z).
Proof. repeat split; try discriminate; repeat constructor; discriminate. Qed.

(** C05: every converter preserves the multiset of (time, failed?) observations, so all
    routes between formats agree. *)
Theorem C05_conversions_preserve_observations {T} (leb : T -> T -> bool) (ord : total_order leb) :
  (forall f r, let x := FR_to_FNRN leb f r in
     Permutation (fnrn_obs (fn_failures x) (fn_num_failures x)
                    (fn_right_censored x) (fn_num_right_censored x)) (fr_obs f r)) /\
  (forall (f : list T) nf r nr fr, FNRN_to_FR f nf (Some r) (Some nr) = Ok fr ->
     Permutation (fr_obs (fr_failures fr) (fr_right_censored fr))
       (fnrn_obs f nf (Some r) (Some nr))) /\
  (forall (f : list T) nf fr, FNRN_to_FR f nf None None = Ok fr ->
     Permutation (fr_obs (fr_failures fr) (fr_right_censored fr)) (fnrn_obs f nf None None)) /\
  (forall f r cc fc is_failure,
     is_str fc = is_str cc -> is_failure fc = true -> is_failure cc = false ->
     let x := FR_to_XCN leb f r cc fc in
     Permutation (xcn_obs is_failure (xcn_X x) (xcn_C x) (xcn_N x)) (fr_obs f r)) /\
  (forall (X : list T) C N cc fc is_failure fr,
     (forall c, In c C -> means fc cc c (is_failure c)) ->
     XCN_to_FR X C (Some N) cc fc = Ok fr ->
     Permutation (fr_obs (fr_failures fr) (fr_right_censored fr)) (xcn_obs is_failure X C N)) /\
  (forall (X : list T) C N cc fc is_failure fn,
     (forall c, In c C -> means fc cc c (is_failure c)) ->
     XCN_to_FNRN leb X C (Some N) cc fc = Ok fn ->
     Permutation (fnrn_obs (fn_failures fn) (fn_num_failures fn)
        (fn_right_censored fn) (fn_num_right_censored fn)) (xcn_obs is_failure X C N)) /\
  (forall f nf r nr cc fc is_failure x,
     is_str fc = is_str cc -> is_failure fc = true -> is_failure cc = false ->
     FNRN_to_XCN leb f nf (Some r) (Some nr) cc fc = Ok x ->
     Permutation (xcn_obs is_failure (xcn_X x) (xcn_C x) (xcn_N x))
       (fnrn_obs f nf (Some r) (Some nr))).
Proof. exact (conversions_preserve leb ord). Qed.
Print Assumptions C05_conversions_preserve_observations.

Example C05_hypotheses :
  (forall c, In c [CStr "f"; CStr "susp"; CStr "F"] ->
     means None None c (code_eqb (code_upper c) (CStr "F"))) /\
  XCN_to_FR [10;20;30] [CStr "f"; CStr "susp"; CStr "F"] (Some [2;1;1]%Z) None None
  = Ok (mkFR [10;10;30] (Some [20])).
Proof.
  split; [|reflexivity]. intros c H.
  repeat (destruct H as [<-|H]; [apply classify_means; reflexivity|]). destruct H.
Qed.

(** C06: XCN_to_FR either raises ValueError or loses nothing: it succeeds exactly when the
    columns have the same length, no quantity is negative, at most two codes occur and
    every code has a meaning; then the failures are the rows meaning "failed", in order and
    repeated N times, and the censored data are the others. *)
Theorem C06_XCN_to_FR_exact {T} (X : list T) (C : list code) (N : list Z)
    (censor_code failure_code : option code) :
  (forall f r, XCN_to_FR X C (Some N) censor_code failure_code = Ok (mkFR f r) <->
     List.length X = List.length C /\ List.length X = List.length N /\
     at_most_two_codes C /\ Forall (fun n => (0 <= n)%Z) N /\
     exists failed, Forall2 (means failure_code censor_code) C failed /\
       f = map fst (filter (fun o => snd o) (copies (combine X failed) N)) /\
       r <> Some [] /\
       opt_list r = map fst (filter (fun o => negb (snd o)) (copies (combine X failed) N))) /\
  (forall e, XCN_to_FR X C (Some N) censor_code failure_code = Err e -> e = ValueError) /\
  XCN_to_FR X C None censor_code failure_code
  = XCN_to_FR X C (Some (map (fun _ => 1%Z) X)) censor_code failure_code.
Proof. exact (XCN_to_FR_exact X C N censor_code failure_code). Qed.
Print Assumptions C06_XCN_to_FR_exact.

Example C06_case :
  XCN_to_FR [10;20;30;40] [CStr "X"; CStr "ok"; CStr "x"; CStr "OK"] (Some [2;1;1;0]%Z)
    (Some (CStr "ok")) (Some (CStr "x")) = Ok (mkFR [10;10;30] (Some [20])) /\
  XCN_to_FR [10;20] [CStr "?"; CStr "f"] None None None = Err ValueError.
Proof. split; reflexivity. Qed.

(** C07 (refuted): xlsx_to_XCN does not always preserve the meaning under the codes it was
    asked to use: with failure code 1 and censor code 0 every failure comes back marked
    censored and vice versa. *)
Theorem C07_xlsx_to_XCN_codes_refuted :
  exists (X : list nat) C N x,
    xlsx_to_XCN Nat.leb X C (Some N) None None (CNum 0) (CNum 1) = Ok x /\
    Forall2 (means None None) C [true; false] /\
    xcn_obs (fun c => code_eqb c (CNum 1)) (xcn_X x) (xcn_C x) (xcn_N x) =
      [(20, true); (10, false)] /\
    copies (combine X [true; false]) N = [(10, true); (20, false)].
Proof. exact xlsx_codes_swapped. Qed.
Print Assumptions C07_xlsx_to_XCN_codes_refuted.

(** C07 (partial): the meaning is preserved when the output codes are among the common
    codes with their documented meaning.  Missing: arbitrary output codes. *)
Theorem C07_xlsx_to_XCN_codes_partial {T} (leb : T -> T -> bool) (ord : total_order leb)
    (X : list T) C0 N ci fi co fo is_failure x :
  In (code_upper fo) documented_failure_codes -> In (code_upper co) documented_censored_codes ->
  is_str fo = is_str co -> is_failure fo = true -> is_failure co = false ->
  xlsx_to_XCN leb X C0 (Some N) ci fi co fo = Ok x ->
  exists failed, Forall2 (means fi ci) C0 failed /\
    Permutation (xcn_obs is_failure (xcn_X x) (xcn_C x) (xcn_N x))
      (copies (combine X failed) N).
Proof. exact (xlsx_to_XCN_meaning_doc leb ord X C0 N ci fi co fo is_failure x). Qed.
Print Assumptions C07_xlsx_to_XCN_codes_partial.

Example C07_partial_case :
  xlsx_to_XCN Nat.leb [10;20;10] [CStr "broken"; CStr "ok"; CStr "Broken"] (Some [1;3;2]%Z)
    (Some (CStr "OK")) (Some (CStr "broken")) (CStr "C") (CStr "F")
  = Ok (mkXCN [10;20] [CStr "F"; CStr "C"] [3;3]%Z).
Proof. reflexivity. Qed.
