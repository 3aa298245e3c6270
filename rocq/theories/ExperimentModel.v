(** Model of the experiment program, experiments/synthetic_data_benchmarks.cc: the only
    client of the library in /repo that runs a whole hierarchical evaluation.

    ABSL_QCHECK (rejects its input) is [Err INVALID_ARGUMENT]; ABSL_CHECK and
    StatusOr::value() on an error abort, [Crash].  Timing, logging and the benchmark
    library are not modelled.  Doubles are rationals: [rnd] is the rounding of one
    operation and [log2] the library function; both are arguments. *)
From Coq Require Import List NArith ZArith QArith Bool Qround.
From Verif Require Import Base ValueTypesModel DpfModel.
Import ListNotations.
Open Scope N_scope.

(** The flags, synthetic_data_benchmarks.cc:45-61.  [fl_input] says whether --input is
    set; a level is the result of SimpleAtoi on one element of --levels_to_evaluate. *)
Record flags := {
  fl_input : bool;
  fl_ld : Z;
  fl_iterations : Z;
  fl_factor : Z;
  fl_only_nonzeros : bool;
  fl_levels : list (option Z)
}.
(** The default values of the flags, synthetic_data_benchmarks.cc:45-61. *)
Definition default_flags : flags :=
  {| fl_input := false; fl_ld := 20; fl_iterations := 20; fl_factor := 2;
     fl_only_nonzeros := false; fl_levels := [] |}.

(** ValidateFlags, synthetic_data_benchmarks.cc:73-93. *)
Definition validate_flags (f : flags) : res unit :=
  _ <- check (0 <=? fl_ld f)%Z INVALID_ARGUMENT ;;
  _ <- check (0 <? fl_iterations f)%Z INVALID_ARGUMENT ;;
  _ <- check (implb (fl_only_nonzeros f) (fl_input f)) INVALID_ARGUMENT ;;
  _ <- check (2 <=? fl_factor f)%Z INVALID_ARGUMENT ;;
  iterM (fun o => match o with
                  | Some l => check ((0 <? l)%Z && (l <=? fl_ld f)%Z) INVALID_ARGUMENT
                  | None => Err INVALID_ARGUMENT
                  end) (fl_levels f).

(** absl::btree_set<absl::uint128>::insert, as used in
    synthetic_data_benchmarks.cc:109, 134: the set is the increasing list of its
    elements. *)
Fixpoint set_insert (x : N) (s : list N) : list N :=
  match s with
  | [] => [x]
  | y :: s' => if x <? y then x :: s else if x =? y then s else y :: set_insert x s'
  end.

(** One iteration of the loop of ComputePrefixes, synthetic_data_benchmarks.cc:106-113:
    the set of x >> 1 for x in result[i]. *)
Definition shorter (l : list N) : list N :=
  fold_left (fun s x => set_insert (N.shiftr x 1) s) l [].
(** The loop of ComputePrefixes, synthetic_data_benchmarks.cc:106-113, for
    i = n + 1, ..., 2. *)
Fixpoint prefixes_loop (n : nat) (result : list (list N)) : list (list N) :=
  match n with
  | O => result
  | S n' => prefixes_loop n' (set_nth result n (shorter (nth (S n) result [])))
  end.
(** ComputePrefixes, synthetic_data_benchmarks.cc:97-115.  [ld] is not negative
    (ValidateFlags); ld + 1 must not overflow an int. *)
Definition compute_prefixes (last_level : list N) (ld : Z) : res (list (list N)) :=
  if (ld =? 2 ^ 31 - 1)%Z then UB
  else
    let n := Z.to_nat ld in
    Ok (prefixes_loop (n - 1) (set_nth (repeat [] (S n)) n last_level)).

(** ReadUniqueValuesFromFile, synthetic_data_benchmarks.cc:119-140.  Simplification:
    the file is the list of its lines, a line the list of its fields, a field the result
    of SimpleAtoi on it; reader.ok() is an argument. *)
Definition read_unique_values (lines : list (list (option N))) (reader_ok : bool) : res (list N) :=
  s <- foldM (fun s line =>
                match line with
                | Some x :: _ => Ok (set_insert x s)
                | _ => Err INVALID_ARGUMENT
                end) lines [] ;;
  _ <- check reader_ok INVALID_ARGUMENT ;;
  Ok s.

Section Doubles.
Variable rnd : Q -> Q.
Variable log2 : Z -> Q.

(** static_cast<int> of a double, synthetic_data_benchmarks.cc:156, 168: truncation; undefined
    if the result does not fit. *)
Definition double_to_int (x : Q) : res Z :=
  let z := if Qle_bool 0 x then Qfloor x else Qceiling x in
  if ((- 2 ^ 31 <=? z) && (z <? 2 ^ 31))%Z then Ok z else UB.
(** std::log2 of an int, synthetic_data_benchmarks.cc:156-170.  The logarithm of zero or less is
    not finite, and then the conversion to int in the same expression is undefined. *)
Definition log2_int (n : Z) : res Q := if (0 <? n)%Z then Ok (log2 n) else UB.

(** The next level in the loop of ComputeLevelsToEvaluate,
    synthetic_data_benchmarks.cc:161-169. *)
Definition next_level (prefixes : list (list N)) (n factor ld back : Z) : res Z :=
  if (back + 1 <? 0)%Z then UB
  else
    p <- at_or_ub prefixes (Z.to_nat (back + 1)) ;;
    ln <- log2_int n ;;
    lf <- log2_int factor ;;
    lm <- log2_int (to_int32 (Z.of_nat (length p))) ;;
    z <- double_to_int (rnd (rnd (rnd (inject_Z back + ln) + lf) - lm)) ;;
    Ok (Z.min ld z).
(** The loop of ComputeLevelsToEvaluate, synthetic_data_benchmarks.cc:160-170.  [None] if
    it has not ended after [fuel] iterations. *)
Fixpoint levels_loop (fuel : nat) (prefixes : list (list N)) (n factor ld : Z)
    (levels : list Z) (back : Z) : option (res (list Z)) :=
  if (back <? ld)%Z then
    match fuel with
    | O => None
    | S fuel' =>
        match next_level prefixes n factor ld back with
        | Ok next => levels_loop fuel' prefixes n factor ld (levels ++ [next]) next
        | Err c => Some (Err c)
        | Crash => Some Crash
        | UB => Some UB
        end
    end
  else Some (Ok levels).
(** The first level of ComputeLevelsToEvaluate, synthetic_data_benchmarks.cc:149-159. *)
Definition first_level (prefixes : list (list N)) (factor ld : Z) : res Z :=
  let n := to_int32 (Z.of_nat (length (last prefixes []))) in
  if (n <=? 0)%Z then Crash
  else
    ln <- log2_int n ;;
    lf <- log2_int factor ;;
    z <- double_to_int (rnd (ln + lf)) ;;
    Ok (Z.min ld z - 1)%Z.
(** ComputeLevelsToEvaluate, synthetic_data_benchmarks.cc:146-172. *)
Definition compute_levels (fuel : nat) (prefixes : list (list N)) (ld factor : Z)
  : option (res (list Z)) :=
  match first_level prefixes factor ld with
  | Ok first =>
      levels_loop fuel prefixes (to_int32 (Z.of_nat (length (last prefixes [])))) factor ld
        [first] first
  | Err c => Some (Err c)
  | Crash => Some Crash
  | UB => Some UB
  end.
(** The choice of levels in main, synthetic_data_benchmarks.cc:234-250.  The levels
    given by the flag have been parsed by ValidateFlags. *)
Definition main_levels (fuel : nat) (f : flags) (prefixes : list (list N)) : option (res (list Z)) :=
  match fl_levels f with
  | [] =>
      if negb (fl_only_nonzeros f) && negb (Nat.eqb (length (last prefixes [])) 0)
      then compute_levels fuel prefixes (fl_ld f) (fl_factor f)
      else Some (Ok [fl_ld f])
  | ls => Some (Ok (map (fun o => match o with Some l => l | None => 0%Z end) ls))
  end.
End Doubles.

(** The prefixes for each level, synthetic_data_benchmarks.cc:254-257. *)
Definition prefixes_to_evaluate (prefixes : list (list N)) (levels : list Z)
  : res (list (list N)) :=
  ps <- mapM (fun l => if (l <? 0)%Z then UB else at_or_ub prefixes (Z.to_nat l))
             (removelast levels) ;;
  Ok ([] :: ps).

(** The parameters of the DPF, synthetic_data_benchmarks.cc:269-276: 32-bit integers at
    the given levels; the security parameter is not set. *)
Definition experiment_params (levels : list Z) : list param :=
  map (fun l => {| p_ld := l; p_vt := Some (PTInteger 32); p_sec := DFin 0 |}) levels.

(** StatusOr::value(), as used in synthetic_data_benchmarks.cc:181, 187, 209, 280, 292:
    aborts on an error. *)
Definition value_or_abort {A} (r : res A) : res A :=
  match r with Err _ => Crash | r => r end.

(** One iteration of RunHierarchicalEvaluation<uint32_t>, synthetic_data_benchmarks.cc:185-196,
    from level [h] on. *)
Fixpoint hierarchical_loop (aes : N -> N -> N) (d : dpf) (h : nat) (prefixes : list (list N))
    (c : ectx) : res (list (list cval)) :=
  match prefixes with
  | [] => Ok []
  | p :: prefixes' =>
      let '(r, c') := evaluate_until aes d (TInt 32) (Z.of_nat h) p c in
      out <- value_or_abort r ;;
      outs <- hierarchical_loop aes d (S h) prefixes' c' ;;
      Ok (out :: outs)
  end.
(** RunHierarchicalEvaluation<uint32_t>, synthetic_data_benchmarks.cc:176-198.  Every iteration
    starts from the same context, so the model has one. *)
Definition run_hierarchical (aes : N -> N -> N) (d : dpf) (key : dkey) (prefixes : list (list N))
  : res (list (list cval)) :=
  c <- value_or_abort (create_evaluation_context d key) ;;
  if negb (Nat.eqb (length prefixes) (length (c_params c))) then Crash
  else hierarchical_loop aes d 0 prefixes c.
(** RunBatchedSinglePointEvaluation<uint32_t>, synthetic_data_benchmarks.cc:202-214; one
    iteration. *)
Definition run_batched (aes : N -> N -> N) (d : dpf) (key : dkey) (nonzeros : list N)
  : res (list (list cval)) :=
  if negb (Nat.eqb (length (d_params d)) 1) then Crash
  else
    r <- value_or_abort (evaluate_at aes d (TInt 32) key 0 nonzeros) ;;
    if negb (Nat.eqb (length r) (length nonzeros)) then Crash else Ok [r].

(** The prefixes that main computes, synthetic_data_benchmarks.cc:222-230. *)
Definition main_prefixes (f : flags) (lines : list (list (option N))) (reader_ok : bool)
  : res (list (list N)) :=
  _ <- validate_flags f ;;
  if fl_input f
  then s <- read_unique_values lines reader_ok ;; compute_prefixes s (fl_ld f)
  else Ok [[]].

(** main from the choice of levels on, synthetic_data_benchmarks.cc:254-307, for the key
    of one party: main evaluates the first key and drops the second.  [rand] is the random
    128-bit integer from which alpha is computed.  1 << log_domain_size is only computed
    below 128.  GenerateKeysIncremental is called with absl::uint128 values, whose type
    its ToValue registers (distributed_point_function.h:113-121, 245-259). *)
Definition main_run (aes : N -> N -> N) (F : fops) (f : flags) (prefixes : list (list N))
    (levels : list Z) (rand seed0 seed1 : N) (party : bool) : res (list (list cval)) :=
  pe <- prefixes_to_evaluate prefixes levels ;;
  d <- value_or_abort (create_incremental F (experiment_params levels)) ;;
  let alpha := if (fl_ld f <? 128)%Z then rand mod 2 ^ Z.to_N (fl_ld f) else rand in
  let d := register_value_type (TInt 128) d in
  let beta := map (fun _ => to_value (TInt 128) (VNum 1)) levels in
  '(k0, k1) <- value_or_abort (generate_keys aes d alpha beta seed0 seed1) ;;
  let key := if party then k1 else k0 in
  if fl_only_nonzeros f then run_batched aes d key (last prefixes [])
  else run_hierarchical aes d key pe.

(** main, synthetic_data_benchmarks.cc:218-308.  The result are the outputs of one
    iteration; [None] if the loop in ComputeLevelsToEvaluate has not ended after [fuel]
    iterations. *)
Definition experiment_main (rnd : Q -> Q) (log2 : Z -> Q) (fuel : nat) (aes : N -> N -> N) (F : fops)
    (f : flags) (lines : list (list (option N))) (reader_ok : bool)
    (rand seed0 seed1 : N) (party : bool) : option (res (list (list cval))) :=
  match main_prefixes f lines reader_ok with
  | Ok prefixes =>
      match main_levels rnd log2 fuel f prefixes with
      | None => None
      | Some (Ok levels) => Some (main_run aes F f prefixes levels rand seed0 seed1 party)
      | Some (Err c) => Some (Err c)
      | Some Crash => Some Crash
      | Some UB => Some UB
      end
  | Err c => Some (Err c)
  | Crash => Some Crash
  | UB => Some UB
  end.
