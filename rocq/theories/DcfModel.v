(** Model of the distributed comparison function
    (dcf/distributed_comparison_function.{h,cc}) and of the multiple interval containment
    gate (dcf/fss_gates/multiple_interval_containment.{h,cc}). *)
From Coq Require Import List NArith ZArith QArith Bool.
From Verif Require Import Base ListUtil ValueTypesModel DpfModel.
Import ListNotations.
Open Scope N_scope.

(** * Distributed comparison function *)

(** The members of DistributedComparisonFunction, distributed_comparison_function.h:124-125.
    DcfParameters is a message around DpfParameters and DcfKey one around DpfKey
    (distributed_comparison_function.proto:22-29); an unset field reads as the default
    message, so both are modelled by what they wrap. *)
Record dcf := { dc_param : param; dc_dpf : dpf }.

(** SetToZero, distributed_comparison_function.cc:32-42.  XorWrapper values and unset
    values are left alone. *)
Fixpoint set_to_zero (v : pvalue) : pvalue :=
  match v with
  | PVInteger _ => PVInteger (VI64 0)
  | PVIntModN _ => PVIntModN (VI64 0)
  | PVTuple els => PVTuple (map set_to_zero els)
  | PVXor _ | PVUnset => v
  end.

(** dpf_parameters, distributed_comparison_function.cc:57-64.  Only log_domain_size and
    value_type are set; assigning an unset value_type sets it to the default message. *)
Definition dcf_dpf_parameters (p : param) : list param :=
  map (fun i => {| p_ld := Z.of_nat i; p_vt := Some (p_type p); p_sec := DFin 0 |})
      (seq 0 (Z.to_nat (p_ld p))).

(** Create, distributed_comparison_function.cc:50-78. *)
Definition dcf_create (F : fops) (p : param) : res dcf :=
  _ <- check (negb (p_ld p <? 1)%Z) INVALID_ARGUMENT ;;
  _ <- validate_parameters (dcf_dpf_parameters p) ;;
  d <- create_incremental F (dcf_dpf_parameters p) ;;
  Ok {| dc_param := p; dc_dpf := d |}.

(** The templated GenerateKeys<T>, distributed_comparison_function.h:57-67, calls
    DistributedPointFunction::ToValue, which registers T, and then GenerateKeys. *)
Definition dcf_register (T : cty) (c : dcf) : dcf :=
  {| dc_param := dc_param c; dc_dpf := register_value_type T (dc_dpf c) |}.

(** (x & (absl::uint128{1} << shift)) != 0; shifting by 128 or more is undefined
    (distributed_comparison_function.cc:88 and distributed_comparison_function.h:157). *)
Definition bit_128 (x : N) (shift : Z) : res bool :=
  if (shift <? 0)%Z || (128 <=? shift)%Z then UB else Ok (N.testbit x (Z.to_N shift)).

Section Aes.
Variable aes : N -> N -> N.

(** dpf_values, distributed_comparison_function.cc:83-92. *)
Definition dcf_values (n : Z) (alpha : N) (beta : pvalue) : res (list pvalue) :=
  mapM (fun i => bit <- bit_128 alpha (n - Z.of_nat i - 1) ;;
                 Ok (if bit then beta else set_to_zero beta)) (seq 0 (Z.to_nat n)).

(** GenerateKeys, distributed_comparison_function.cc:80-102; [seed0] and [seed1] as in
    [generate_keys]. *)
Definition dcf_generate_keys (c : dcf) (alpha : N) (beta : pvalue) (seed0 seed1 : N)
  : res (dkey * dkey) :=
  values <- dcf_values (p_ld (dc_param c)) alpha beta ;;
  generate_keys aes (dc_dpf c) (N.shiftr alpha 1) values seed0 seed1.

(** The templated overload, distributed_comparison_function.h:57-67. *)
Definition dcf_generate_keys_t (T : cty) (c : dcf) (alpha : N) (beta : cval) (seed0 seed1 : N)
  : res (dkey * dkey) :=
  dcf_generate_keys (dcf_register T c) alpha (to_value T beta) seed0 seed1.

(** The callback `accumulator`, distributed_comparison_function.h:148-167.  Its state is
    hierarchy_level and output, or the failure it reported. *)
Definition dcf_accumulate (T : cty) (ld num_keys : Z) (points : list N)
    (s : res (Z * list cval)) (values : list cval) : res (Z * list cval) * bool :=
  match s with
  | Ok (level, output) =>
      if negb (Z.of_nat (length values) =? num_keys)%Z then (Err INTERNAL, false)
      else
        match
          (outs <- mapM (fun xov : N * (cval * cval) =>
                     bit <- bit_128 (fst xov) (ld - level - 1) ;;
                     Ok (if bit then fst (snd xov)
                         else vadd T (fst (snd xov)) (snd (snd xov))))
                   (combine points (combine output values)) ;;
           _ <- bit_128 0 (ld - level - 1) ;; (* mask is computed even without keys *)
           Ok (level + 1, outs)%Z)
        with
        | Ok s' => (Ok s', true)
        | r => (r, false)
        end
  | r => (r, false)
  end.

(** BatchEvaluate with an output span, distributed_comparison_function.h:130-184;
    [output] is its content before the call, the result is its content after a
    successful call.  num_keys is an int: when it is negative, the constructor of
    dpf_keys throws. *)
Definition dcf_batch_evaluate (c : dcf) (T : cty) (keys : list dkey) (points : list N)
    (output : list cval) : res (list cval) :=
  _ <- check (Nat.eqb (length keys) (length points)) INVALID_ARGUMENT ;;
  _ <- check (Nat.eqb (length output) (length keys)) INVALID_ARGUMENT ;;
  let num_keys := to_int32 (Z.of_nat (length keys)) in
  if (num_keys <? 0)%Z then Crash
  else
    s <- evaluate_and_apply aes (dc_dpf c) T (firstn (Z.to_nat num_keys) keys) points
           (dcf_accumulate T (p_ld (dc_param c)) num_keys points) 1
           (Ok (0%Z, map (fun _ => vzero T) output)) ;;
    s <- s ;;
    Ok (snd s).

(** BatchEvaluate returning a vector, distributed_comparison_function.h:92-103. *)
Definition dcf_batch_evaluate_vector (c : dcf) (T : cty) (keys : list dkey) (points : list N)
  : res (list cval) :=
  dcf_batch_evaluate c T keys points (map (fun _ => vzero T) keys).

(** Evaluate, distributed_comparison_function.h:73-83. *)
Definition dcf_evaluate (c : dcf) (T : cty) (key : dkey) (x : N) : res cval :=
  r <- dcf_batch_evaluate c T [key] [x] [vzero T] ;;
  at_or_ub r 0.

(** * Multiple interval containment gate *)

(** Interval, multiple_interval_containment.proto:23-31. *)
Record interval := { iv_lower : option vinteger; iv_upper : option vinteger }.
(** MicParameters, multiple_interval_containment.proto:33-46. *)
Record mic_params := { mp_log : Z; mp_intervals : list interval }.
(** MicKey, multiple_interval_containment.proto:51-60. *)
Record mic_key := { mk_dcf : dkey; mk_shares : list vinteger }.

(** MakeUint128(i.value_uint128().high(), i.value_uint128().low()): zero unless the
    value_uint128 alternative of the oneof is set (multiple_interval_containment.cc:59-65). *)
Definition u128_field (i : vinteger) : N :=
  match i with VI128 hi lo => mk128 hi lo | _ => 0 end.
(** The same for an unset bound, whose default message is read,
    multiple_interval_containment.cc:59-65. *)
Definition opt_u128_field (i : option vinteger) : N :=
  match i with Some i => u128_field i | None => 0 end.
(** The lower bound as it is read, multiple_interval_containment.cc:59-61, 157-159 and 246-248. *)
Definition lower (i : interval) : N := opt_u128_field (iv_lower i).
(** The upper bound as it is read, multiple_interval_containment.cc:63-65, 161-163 and 250-252. *)
Definition upper (i : interval) : N := opt_u128_field (iv_upper i).

(** The members of MultipleIntervalContainmentGate (multiple_interval_containment.h:94-106). *)
Record mic := { m_params : mic_params; m_dcf : dcf }.

(** The checks of one interval, multiple_interval_containment.cc:53-86. *)
Definition check_interval (group : N) (i : interval) : res unit :=
  _ <- check (match iv_lower i, iv_upper i with Some _, Some _ => true | _, _ => false end)
             INVALID_ARGUMENT ;;
  _ <- check (lower i <? group) INVALID_ARGUMENT ;;
  _ <- check (upper i <? group) INVALID_ARGUMENT ;;
  check (negb (upper i <? lower i)) INVALID_ARGUMENT.

(** Create, multiple_interval_containment.cc:37-103. *)
Definition mic_create (F : fops) (mp : mic_params) : res mic :=
  _ <- check (negb ((mp_log mp <? 0)%Z || (127 <? mp_log mp)%Z)) INVALID_ARGUMENT ;;
  _ <- iterM (check_interval (2 ^ Z.to_N (mp_log mp))) (mp_intervals mp) ;;
  c <- dcf_create F {| p_ld := mp_log mp; p_vt := Some (to_value_type (TInt 128));
                       p_sec := DFin 0 |} ;;
  Ok {| m_params := mp; m_dcf := c |}.

(** The size of the group, multiple_interval_containment.cc:50, 118 and 221. *)
Definition group_of (m : mic) : N := 2 ^ Z.to_N (mp_log (m_params m)).
(** Conversion of a comparison to an integer, multiple_interval_containment.cc:178-179 and 300. *)
Definition b2n (b : bool) : N := if b then 1 else 0.

(** The correction term z of one interval, multiple_interval_containment.cc:157-178.
    All operations are on absl::uint128; -1 is 2^128 - 1. *)
Definition mic_correction (group r_in r_out : N) (i : interval) : N :=
  let p := lower i in
  let q := upper i in
  let q_prime := w128 (q + 1) mod group in
  let alpha_p := w128 (p + r_in) mod group in
  let alpha_q := w128 (q + r_in) mod group in
  let alpha_q_prime := w128 (q + 1 + r_in) mod group in
  w128 (r_out + b2n (alpha_q <? alpha_p) + (if p <? alpha_p then P128 - 1 else 0)
        + b2n (q_prime <? alpha_q_prime) + b2n (alpha_q =? group - 1)) mod group.

(** A Value_Integer with value_uint128 set to [x] (multiple_interval_containment.cc:192-204). *)
Definition u128_integer (x : N) : vinteger := VI128 (hi64 x) (lo64 x).

(** Gen, multiple_interval_containment.cc:110-209.  [rnd i] is the result of Rand128 for
    the i-th interval.  Simplification: Rand128 does not fail. *)
Definition mic_gen (m : mic) (r_in : N) (r_out : list N) (seed0 seed1 : N) (rnd : nat -> N)
  : res (mic_key * mic_key) :=
  let intervals := mp_intervals (m_params m) in
  let group := group_of m in
  _ <- check (Nat.eqb (length r_out) (length intervals)) INVALID_ARGUMENT ;;
  _ <- check (r_in <? group) INVALID_ARGUMENT ;;
  _ <- iterM (fun r => check (r <? group) INVALID_ARGUMENT) r_out ;;
  let gamma := w128 (group - 1 + r_in) mod group in
  '(key0, key1) <- dcf_generate_keys_t (TInt 128) (m_dcf m) gamma (VNum 1) seed0 seed1 ;;
  let shares :=
    zip2 (fun (ir : nat * interval) r =>
            let z := mic_correction group r_in r (snd ir) in
            let z0 := w128 (rnd (fst ir)) mod group in
            let z1 := w128 (z + P128 - z0) mod group in
            (u128_integer z0, u128_integer z1))
         (combine (seq 0 (length intervals)) intervals) r_out in
  Ok ({| mk_dcf := key0; mk_shares := map fst shares |},
      {| mk_dcf := key1; mk_shares := map snd shares |}).

(** One output, multiple_interval_containment.cc:287-302. *)
Definition mic_output (group x : N) (k : mic_key) (i : interval) (j : nat) (s_p s_q_prime : N)
  : res N :=
  let p := lower i in
  let q_prime := w128 (upper i + 1) mod group in
  share <- at_or_ub (mk_shares k) j ;;
  let z := u128_field share in
  let first := if negb (k_party (mk_dcf k) =? 0)%Z
               then w128 (b2n (p <? x) + (if q_prime <? x then P128 - 1 else 0)) else 0 in
  Ok (w128 (first + (P128 - s_p mod group) + s_q_prime mod group + z) mod group).

(** The number in a value of type absl::uint128
    (multiple_interval_containment.cc:273-282 and 292-293). *)
Definition vnum (v : cval) : N := match v with VNum n => n | VTup _ => 0 end.

(** BatchEval, multiple_interval_containment.cc:211-308.  `int index` overflows with more
    than 2^31 outputs.  Simplification: memory allocation does not fail. *)
Definition mic_batch_eval (m : mic) (keys : list mic_key) (points : list N) : res (list N) :=
  let intervals := mp_intervals (m_params m) in
  let group := group_of m in
  _ <- check (Nat.eqb (length keys) (length points)) INVALID_ARGUMENT ;;
  _ <- iterM (fun x => check (x <? group) INVALID_ARGUMENT) points ;;
  if (2147483648 <? N.of_nat (length keys) * N.of_nat (length intervals)) then UB
  else
    let tasks := flat_map (fun kx : mic_key * N =>
                   map (fun ji : nat * interval => (kx, ji))
                       (combine (seq 0 (length intervals)) intervals)) (combine keys points) in
    let x_p := map (fun t : (mic_key * N) * (nat * interval) =>
                 w128 (snd (fst t) + group - 1 + (P128 - lower (snd (snd t)))) mod group) tasks in
    let x_q_prime := map (fun t : (mic_key * N) * (nat * interval) =>
                 w128 (snd (fst t) + group - 1
                       + (P128 - w128 (upper (snd (snd t)) + 1) mod group)) mod group) tasks in
    let dcf_keys := map (fun t : (mic_key * N) * (nat * interval) => mk_dcf (fst (fst t))) tasks in
    s_p <- dcf_batch_evaluate (m_dcf m) (TInt 128) dcf_keys x_p (map (fun _ => VNum 0) tasks) ;;
    s_q_prime <- dcf_batch_evaluate (m_dcf m) (TInt 128) dcf_keys x_q_prime
                   (map (fun _ => VNum 0) tasks) ;;
    mapM (fun ts : ((mic_key * N) * (nat * interval)) * (cval * cval) =>
            let '(((k, x), (j, i)), (sp, sq)) := ts in
            mic_output group x k i j (vnum sp) (vnum sq))
         (combine tasks (combine s_p s_q_prime)).

(** Eval, multiple_interval_containment.h:77-80. *)
Definition mic_eval (m : mic) (key : mic_key) (x : N) : res (list N) :=
  mic_batch_eval m [key] [x].

End Aes.
