(** Model of the use of numpy's global random generator by make_right_censored_data and
    make_ALT_data (/repo/reliability/Other_functions.py 951-987 and 1068-1275): which state each
    random number is drawn from. OtherModel.v models the same functions with the random numbers
    given from outside. *)
From Coquelicot Require Import Coquelicot.
From Coq Require Import String.
From Coq Require Import List Arith Reals Lra Lia Bool NArith ZArith.
From Verif Require Import Base RealFacts Ext RList ConvertModel RepairModel TestingModel DistModel CombModel SelModel CIModel OtherModel RandModel.
Import ListNotations.
Open Scope R_scope.

Section Generator.
  (** The states of the generator; the state set by np.random.seed(s); the state set by
      np.random.seed(None), which comes from the operating system; one number of np.random.rand;
      one value of scipy's rvs for a standard member of a family; the order into which
      np.random.shuffle puts n items, as the list of their old positions (np.random.shuffle does
      not look at the values); one number of np.random.randint(low=0, high=1000000). Arrays of
      random numbers are drawn one number after the other. *)
  Variable G : Type.
  Variable seeded : Z -> G.
  Variable entropy : G.
  Variable uniform : G -> R * G.
  Variable std_draw : dist -> G -> R * G.
  Variable order : nat -> G -> list nat * G.
  Variable randint : G -> Z * G.

  (** np.random.shuffle, 968 *)
  Definition shuffle (l : list R) (g : G) : list R * G :=
    let '(positions, g1) := order (length l) g in (map (fun i => nth i l 0) positions, g1).
  (** make_right_censored_data, 951-987: the result, the caller's data after the call, the state
      of the generator after the call. The generator is seeded (965-966) and the data shuffled
      (968) before the fraction is checked (970-977); np.random.rand is called at 979. *)
  Definition censor (data : pydata) (threshold fraction_censored : option R) (seed : option Z) (g : G) : result (list R * list R) * pydata * G :=
    match threshold, fraction_censored with
    | Some _, Some _ => (Err ValueError, data, g)
    | Some t, None =>
        (Ok (filter (fun v => Rleb v t) (contents data), map (fun _ => t) (filter (fun v => Rltb' t v) (contents data))), data, g)
    | None, _ =>
        let f := match fraction_censored with Some f => f | None => 1 / 2 end in
        match reseed G seeded seed g with
        | Err e => (Err e, data, g)
        | Ok g0 =>
            let '(shuffled, g1) := shuffle (contents data) g0 in
            let caller := match data with PyList l => PyList l | NdArray _ => NdArray shuffled end in
            if Rltb' f 0 || Rleb 1 f then (Err ValueError, caller, g1)
            else
              let k := Z.to_nat (rfloor (INR (length shuffled) * f)) in
              let '(us, g2) := draws G uniform k g1 in
              (Ok (skipn k shuffled, zip Rmult (firstn k shuffled) us), caller, g2)
        end
    end.

  (** np.random.seed(seed), 1188: without a seed the state comes from the operating system. *)
  Definition np_seed (seed : option Z) (g : G) : result G :=
    match seed with None => Ok entropy | Some _ => reseed G seeded seed g end.
  (** np.random.randint(low=0, high=1000000, size=n), 1189-1191 *)
  Fixpoint randints (n : nat) (g : G) : list Z * G :=
    match n with
    | O => ([], g)
    | S n => let '(z, g1) := randint g in let '(zs, g2) := randints n g1 in (z :: zs, g2)
    end.

  (** One pass of the loop 1220-1255, with seeds[i] as the seed of random_samples (1222-1224)
      and of make_right_censored_data (1240-1242). None of the distributions is a Beta distribution, so that
      random_samples does not loop. *)
  Definition seed_step (dual : bool) (fraction : R) (number_of_samples : count_arg) (mk : R -> result dist) (life : R -> R -> R)
      (seed : Z) (s1 s2 : R) (acc : alt_data) (g : G) : result alt_data * G :=
    match mk (life s1 s2) with
    | Err e => (Err e, g)
    | Ok d =>
        match random_samples G seeded std_draw 0 d number_of_samples (Some seed) g with
        | None => (Err RuntimeError, g)
        | Some (Err e) => (Err e, g)
        | Some (Ok (raw, g1)) =>
            if Rleb (rmin raw) 0 then (Err ValueError, g1)
            else
              let second (l : list R) := if dual then map (fun _ => s2) l else [] in
              if Req_EM_T fraction 0 then
                (Ok {| ad_failures := ad_failures acc ++ raw; ad_fs1 := ad_fs1 acc ++ map (fun _ => s1) raw; ad_fs2 := ad_fs2 acc ++ second raw;
                       ad_censored := ad_censored acc; ad_cs1 := ad_cs1 acc; ad_cs2 := ad_cs2 acc |}, g1)
              else
                match censor (NdArray raw) None (Some fraction) (Some seed) g1 with
                | (Err e, _, g2) => (Err e, g2)
                | (Ok fc, _, g2) =>
                    (Ok {| ad_failures := ad_failures acc ++ fst fc; ad_fs1 := ad_fs1 acc ++ map (fun _ => s1) (fst fc); ad_fs2 := ad_fs2 acc ++ second (fst fc);
                           ad_censored := ad_censored acc ++ snd fc; ad_cs1 := ad_cs1 acc ++ map (fun _ => s1) (snd fc); ad_cs2 := ad_cs2 acc ++ second (snd fc) |}, g2)
                end
        end
    end.
  Fixpoint seed_loop (dual : bool) (fraction : R) (number_of_samples : count_arg) (mk : R -> result dist) (life : R -> R -> R)
      (levels : list (Z * (R * R))) (acc : alt_data) (g : G) : result alt_data * G :=
    match levels with
    | [] => (Ok acc, g)
    | (seed, (s1, s2)) :: r =>
        match seed_step dual fraction number_of_samples mk life seed s1 s2 acc g with
        | (Err e, g1) => (Err e, g1)
        | (Ok acc', g1) => seed_loop dual fraction number_of_samples mk life r acc' g1
        end
    end.

  (** make_ALT_data, 1068-1275, with the checks of OtherModel.make_ALT_data in the same order: the
      generator is touched only after the checks of the stresses, the fraction and the parameters. *)
  Definition seed_ALT_data (distribution : string) (m : ls_model) (stress_1 : list R) (stress_2 : option (list R)) (p : alt_params) (beta sigma : option R)
      (use_stress : option (R * R)) (number_of_samples : count_arg) (fraction : R) (seed : option Z) (g : G) : result (alt_data * option dist) * G :=
    let s1 := stress_1 ++ match use_stress with Some u => [fst u] | None => [] end in
    let checked :=
      let! s2 := if dual_stress m then
                   match stress_2 with
                   | None => Err ValueError
                   | Some l => let s2 := l ++ match use_stress with Some u => [snd u] | None => [] end in
                               if (length s2 =? length s1)%nat then Ok s2 else Err ValueError
                   end
                 else Ok s1 in
      if Rltb' fraction 0 || Rleb 1 fraction then Err ValueError
      else let! life := life_model m p in let! g0 := np_seed seed g in Ok (s2, life, g0) in
    match checked with
    | Err e => (Err e, g)
    | Ok (s2, life, g0) =>
        let mk := make_dist distribution beta sigma in
        let '(seeds, g1) := randints (length stress_1) g0 in
        match seed_loop (dual_stress m) fraction number_of_samples mk life (combine seeds (firstn (length stress_1) (combine s1 s2))) alt_empty g1 with
        | (Err e, g2) => (Err e, g2)
        | (Ok data, g2) =>
            match use_stress with
            | None => (Ok (data, None), g2)
            | Some _ => match mk (life (last s1 0) (last s2 0)) with Ok d => (Ok (data, Some d), g2) | Err e => (Err e, g2) end
            end
        end
    end.
End Generator.
