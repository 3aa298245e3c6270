(** Model of the DPF, the DCF and the MIC gate on a machine where calls to OpenSSL can fail.  The functions are those of DpfModel.v and DcfModel.v
    with the calls to OpenSSL in the order of the code.  EvaluateSeeds is the scalar version; the Highway version does not call OpenSSL. *)
From Coq Require Import List NArith ZArith Bool.
From Verif Require Import Base ListUtil ValueTypesModel DpfModel DcfModel.
Import ListNotations.
Open Scope N_scope.

(** A computation that calls OpenSSL: from the number of calls made so far to the outcome and the number of calls made then
    (dpf/aes_128_fixed_key_hash.cc:85-94). *)
Definition io (A : Type) := nat -> res A * nat.
(** A computation without calls (dpf/status_macros.h:24-49). *)
Definition lift {A} (r : res A) : io A := fun n => (r, n).
(** DPF_ASSIGN_OR_RETURN / DPF_RETURN_IF_ERROR, dpf/status_macros.h:24-49. *)
Definition bind_f {A B} (m : io A) (f : A -> io B) : io B :=
  fun n => match m n with
           | (Ok a, n') => f a n'
           | (Err c, n') => (Err c, n')
           | (Crash, n') => (Crash, n')
           | (UB, n') => (UB, n')
           end.
Notation "x <~ e ;; f" := (bind_f e (fun x => f))
  (at level 61, e at next level, right associativity) : res_scope.
Notation "' p <~ e ;; f" := (bind_f e (fun x => match x with p => f end))
  (at level 61, p pattern, e at next level, right associativity) : res_scope.

(** Loops that stop at the first failure, e.g. dpf/aes_128_fixed_key_hash.cc:71-98. *)
Section Loops.
  Context {A B S : Type}.
  Variable f : A -> io B.
  Fixpoint map_f (l : list A) : io (list B) :=
    match l with
    | [] => lift (Ok [])
    | a :: l' => b <~ f a ;; bs <~ map_f l' ;; lift (Ok (b :: bs))
    end.
  Variable h : S -> A -> io S.
  Fixpoint fold_f (l : list A) (s : S) : io S :=
    match l with
    | [] => lift (Ok s)
    | a :: l' => s' <~ h s a ;; fold_f l' s'
    end.
End Loops.

Section Library.
(** AES-128 encryption of one block under a key. *)
Variable aes : N -> N -> N.
(** The return value of the n-th call to OpenSSL; 1 stands for success. *)
Variable status : nat -> Z.
(** The 128 bits that the n-th call writes, if it is a successful call of RAND_bytes. *)
Variable random : nat -> N.

(** EVP_Cipher and its check, aes_128_fixed_key_hash.cc:85-94. *)
Definition evp_cipher (key : N) (blocks : list N) : io (list N) :=
  fun n => (if (status n =? 1)%Z then Ok (map (aes key) blocks) else Err INTERNAL, S n).

(** Aes128FixedKeyHash::Create, aes_128_fixed_key_hash.cc:39-57: EVP_CIPHER_CTX_new (a null pointer is a failure) and EVP_EncryptInit_ex. *)
Definition hash_create_f : io unit :=
  _ <~ (fun n => (check (status n =? 1)%Z INTERNAL, S n)) ;;
  (fun n => (check (status n =? 1)%Z INTERNAL, S n)).

(** CreateIncremental, distributed_point_function.cc:592-643. *)
Definition create_incremental_f (F : fops) (ps : list param) : io dpf :=
  d <~ lift (create_incremental F ps) ;;
  _ <~ hash_create_f ;; _ <~ hash_create_f ;; _ <~ hash_create_f ;;
  lift (Ok d).

(** Aes128FixedKeyHash::Evaluate, aes_128_fixed_key_hash.cc:59-100. *)
Definition prg_evaluate_f (key : N) (input : list N) : io (list N) :=
  outs <~ map_f (fun batch =>
            let sigma_in := map sigma batch in
            out <~ evp_cipher key sigma_in ;;
            lift (Ok (zip2 N.lxor out sigma_in))) (chunks batch_size input) ;;
  lift (Ok (concat outs)).

(** One level for one batch, evaluate_prg_hwy.cc:571-629. *)
Definition walk_batch_level_f (num_seeds num_levels : nat) (ncw : Z) (rightshift : nat)
    (cws : list corr) (start : nat) (paths : list N) (level : nat) (st : list node)
  : io (list node) :=
  left <~ prg_evaluate_f kPrgKeyLeft (map fst st) ;;
  right <~ prg_evaluate_f kPrgKeyRight (map fst st) ;;
  lift (walk_batch_loop (walk_one num_seeds num_levels level ncw rightshift cws) start paths st left right).

(** The loop over batches of EvaluateSeedsNoHwy, evaluate_prg_hwy.cc:565-631. *)
Fixpoint walk_batches_f (num_seeds num_levels : nat) (ncw : Z) (rightshift : nat)
    (cws : list corr) (start : nat) (batches : list (list (N * node)))
  : io (list node) :=
  match batches with
  | [] => lift (Ok [])
  | b :: rest =>
      x <~ fold_f (fun st level =>
                     walk_batch_level_f num_seeds num_levels ncw rightshift cws start (map fst b) level st)
                  (seq 0 num_levels) (map snd b) ;;
      xs <~ walk_batches_f num_seeds num_levels ncw rightshift cws (start + length b) rest ;;
      lift (Ok (x ++ xs))
  end.

(** dpf_internal::EvaluateSeeds, evaluate_prg_hwy.cc:552-658, as [evaluate_seeds_internal]. *)
Definition evaluate_seeds_internal_f (num_levels : nat) (ncw : Z) (st : list node)
    (paths : list N) (rightshift : nat) (cws : list corr) : io (list node) :=
  let num_seeds := length st in
  _ <~ lift (check (negb (negb (ncw =? Z.of_nat num_levels)%Z
                    && negb (ncw =? Z.of_nat num_levels * Z.of_nat num_seeds)%Z))
             INVALID_ARGUMENT) ;;
  walk_batches_f num_seeds num_levels ncw rightshift cws 0
    (chunks batch_size (combine paths st)).

(** EvaluateSeeds, distributed_point_function.cc:243-289. *)
Definition evaluate_seeds_f (st : list node) (paths : list N) (cws : list cword)
  : io (list node) :=
  _ <~ lift (check (Nat.eqb (length st) (length paths)) INVALID_ARGUMENT) ;;
  if Nat.eqb (length st) 0 || Nat.eqb (length cws) 0 then lift (Ok st)
  else evaluate_seeds_internal_f (length cws) (Z.of_nat (length cws)) st paths 0
         (map corr_of cws).

(** One expansion of a batch in ExpandSeeds, distributed_point_function.cc:337-367. *)
Definition expand_batch_f (cw : cword) (batch : list node) : io (list node) :=
  left <~ prg_evaluate_f kPrgKeyLeft (map fst batch) ;;
  right <~ prg_evaluate_f kPrgKeyRight (map fst batch) ;;
  lift (Ok (concat (zip3 (fun (st : node) l r =>
                  let b := snd st in
                  let l := if b then N.lxor l (cw_seed cw) else l in
                  let r := if b then N.lxor r (cw_seed cw) else r in
                  [ (clear_lowest l, xorb (lowest_bit l) (b && cw_left cw));
                    (clear_lowest r, xorb (lowest_bit r) (b && cw_right cw)) ])
               batch left right))).
(** One level of ExpandSeeds, distributed_point_function.cc:291-375. *)
Definition expand_level_f (st : list node) (cw : cword) : io (list node) :=
  parts <~ map_f (expand_batch_f cw) (chunks batch_size st) ;;
  lift (Ok (concat parts)).
(** ExpandSeeds, distributed_point_function.cc:291-375. *)
Definition expand_seeds_f (st : list node) (cws : list cword) : io (list node) :=
  let output_size := N.of_nat (length st) * 2 ^ N.of_nat (length cws) in
  if P64 <=? output_size then lift UB
  else if 2 ^ 60 <=? output_size then lift (Err RESOURCE_EXHAUSTED)
  else fold_f expand_level_f cws st.

(** HashExpandedSeeds, distributed_point_function.cc:526-550. *)
Definition hash_expanded_seeds_f (blocks : nat) (seeds : list N) : io (list N) :=
  prg_evaluate_f kPrgKeyValue
    (concat (map (fun s => map (fun j => w128 (s + N.of_nat j)) (seq 0 blocks)) seeds)).

Section WithDpf.
Variable d : dpf.

(** ComputeValueCorrection, distributed_point_function.cc:83-119. *)
Definition compute_value_correction_f (h : nat) (seed_a seed_b : N) (alpha : N)
    (beta : pvalue) (invert : bool) : io (list pvalue) :=
  let expanded s := map (fun j => w128 (s + N.of_nat j)) (seq 0 (blocks d h)) in
  hashed <~ prg_evaluate_f kPrgKeyValue (expanded seed_a ++ expanded seed_b) ;;
  let index := domain_to_block_index d alpha h in
  lift (p <- at_or_ub (d_params d) h ;;
        T <- get_value_correction_function d (p_type p) ;;
        compute_value_correction_for T (block_bytes (blocks d h) hashed 0)
          (block_bytes (blocks d h) hashed 1) index beta invert).

(** GenerateNext, distributed_point_function.cc:123-224. *)
Definition generate_next_f (tree_level : nat) (alpha : N) (beta : list pvalue) (g : gstate)
  : io (gstate * cword) :=
  values <~ match tree_to_hierarchy d (tree_level - 1) with
            | Some h =>
                let alpha_prefix := shr128 alpha (ld_last d - ld d h) in
                b <~ lift (at_or_ub beta h) ;;
                compute_value_correction_f h (g_seed0 g) (g_seed1 g) alpha_prefix b (g_bit1 g)
            | None => lift (Ok [])
            end ;;
  exp_l <~ prg_evaluate_f kPrgKeyLeft [g_seed0 g; g_seed1 g] ;;
  exp_r <~ prg_evaluate_f kPrgKeyRight [g_seed0 g; g_seed1 g] ;;
  lift (
  l0 <- at_or_ub exp_l 0 ;; l1 <- at_or_ub exp_l 1 ;;
  r0 <- at_or_ub exp_r 0 ;; r1 <- at_or_ub exp_r 1 ;;
  let bl0 := lowest_bit l0 in let bl1 := lowest_bit l1 in
  let br0 := lowest_bit r0 in let br1 := lowest_bit r1 in
  let l0 := clear_lowest l0 in let l1 := clear_lowest l1 in
  let r0 := clear_lowest r0 in let r1 := clear_lowest r1 in
  let current_bit := Nat.ltb (ld_last d - tree_level) 128
                     && N.testbit alpha (N.of_nat (ld_last d - tree_level)) in
  let seed_correction := if current_bit then N.lxor l0 l1 else N.lxor r0 r1 in
  let ccl := xorb (xorb (xorb bl0 bl1) current_bit) true in
  let ccr := xorb (xorb br0 br1) current_bit in
  let keep0 := if current_bit then r0 else l0 in
  let keep1 := if current_bit then r1 else l1 in
  let bkeep0 := if current_bit then br0 else bl0 in
  let bkeep1 := if current_bit then br1 else bl1 in
  let cckeep := if current_bit then ccr else ccl in
  Ok ({| g_seed0 := if g_bit0 g then N.lxor keep0 seed_correction else keep0;
         g_seed1 := if g_bit1 g then N.lxor keep1 seed_correction else keep1;
         g_bit0 := xorb bkeep0 (g_bit0 g && cckeep);
         g_bit1 := xorb bkeep1 (g_bit1 g && cckeep) |},
      {| cw_seed := seed_correction; cw_left := ccl; cw_right := ccr;
         cw_values := values |})).

(** The loop of distributed_point_function.cc:693-697. *)
Fixpoint generate_loop_f (n i : nat) (alpha : N) (beta : list pvalue) (g : gstate)
  : io (gstate * list cword) :=
  match n with
  | O => lift (Ok (g, []))
  | S n' =>
      '(g1, cw) <~ generate_next_f i alpha beta g ;;
      '(g2, cws) <~ generate_loop_f n' (S i) alpha beta g1 ;;
      lift (Ok (g2, cw :: cws))
  end.

(** RAND_bytes for a variable of type absl::uint128 that has not been initialised; the return value is not looked at
    (distributed_point_function.cc:682-684).  A call that fails is assumed to write nothing, so that the variable is read uninitialised. *)
Definition rand_uint128_f : io N := fun n => (if (status n =? 1)%Z then Ok (random n) else UB, S n).

(** GenerateKeysIncremental, distributed_point_function.cc:645-713. *)
Definition generate_keys_f (alpha : N) (beta : list pvalue) : io (dkey * dkey) :=
  _ <~ lift (check (Nat.eqb (length beta) (nlevels d)) INVALID_ARGUMENT) ;;
  _ <~ lift (validate_betas (d_params d) beta) ;;
  _ <~ lift (check (negb (Nat.ltb (ld_last d) 128 && (2 ^ N.of_nat (ld_last d) <=? alpha))) INVALID_ARGUMENT) ;;
  seed0 <~ rand_uint128_f ;;
  seed1 <~ rand_uint128_f ;;
  '(g, cws) <~ generate_loop_f (d_levels d - 1) 1 alpha beta
                 {| g_seed0 := seed0; g_seed1 := seed1; g_bit0 := false; g_bit1 := true |} ;;
  b <~ lift (at_or_ub beta (nlevels d - 1)) ;;
  last <~ compute_value_correction_f (nlevels d - 1) (g_seed0 g) (g_seed1 g) alpha b (g_bit1 g) ;;
  lift (Ok ({| k_seed := Some seed0; k_cws := cws; k_party := 0; k_last := last |},
            {| k_seed := Some seed1; k_cws := cws; k_party := 1; k_last := last |})).

(** ComputePartialEvaluations, distributed_point_function.cc:377-479. *)
Definition compute_partial_evaluations_f (prefixes : list N) (h : nat) (update_ctx : bool)
    (c : ectx) : io (list node * ectx) :=
  start_level <~ lift (atz_or_ub (d_h2t d) (c_plevel c)) ;;
  stop_level <~ lift (at_or_ub (d_h2t d) h) ;;
  '(st, start_level) <~ lift
    (if negb (Nat.eqb (length (c_partials c)) 0) && Nat.leb start_level stop_level then
       _ <- check (partials_consistent (c_partials c) []) INVALID_ARGUMENT ;;
       st <- mapM (fun prefix =>
                     match lookup_partial (c_partials c)
                             (shr128 prefix (stop_level - start_level)) with
                     | Some n => Ok n
                     | None => Err INVALID_ARGUMENT
                     end) prefixes ;;
       Ok (st, start_level)
     else
       Ok (map (fun _ => (key_seed (ctx_key c), key_bit (ctx_key c))) prefixes, 0%nat)) ;;
  cws <~ lift (subspan (k_cws (ctx_key c)) start_level (stop_level - start_level)) ;;
  st <~ evaluate_seeds_f st prefixes cws ;;
  lift (Ok (st, {| c_params := c_params c; c_key := c_key c; c_prev := c_prev c;
             c_partials := if update_ctx
                           then zip2 (fun p (n : node) =>
                                        {| pe_prefix := p; pe_seed := fst n; pe_bit := snd n |})
                                     prefixes st
                           else [];
             c_plevel := Z.of_nat h |})).

(** A result with the context after the call, also when the call fails (dpf/distributed_point_function.cc:481-524). *)
Definition cio (A : Type) := nat -> (res A * ectx) * nat.
(** A step that does not modify the context [c], followed by steps that may (dpf/status_macros.h:24-49). *)
Definition bind_c {A B} (c : ectx) (m : io A) (f : A -> cio B) : cio B :=
  fun n => match m n with
           | (Ok a, n') => f a n'
           | (Err e, n') => ((Err e, c), n')
           | (Crash, n') => ((Crash, c), n')
           | (UB, n') => ((UB, c), n')
           end.
(** The end of a call that leaves the context [c] (dpf/distributed_point_function.cc:523). *)
Definition done {A} (c : ectx) (m : io A) : cio A := fun n => let '(r, n') := m n in ((r, c), n').
(** Steps that follow a call that returned a context (dpf/distributed_point_function.h:814-815). *)
Definition bind_cc {A B} (m : cio A) (f : A -> ectx -> cio B) : cio B :=
  fun n => match m n with
           | ((Ok a, c), n') => f a c n'
           | ((Err e, c), n') => ((Err e, c), n')
           | ((Crash, c), n') => ((Crash, c), n')
           | ((UB, c), n') => ((UB, c), n')
           end.

(** ExpandAndUpdateContext, distributed_point_function.cc:481-524. *)
Definition expand_and_update_context_f (h : nat) (prefixes : list N) (c : ectx) : cio (list node) :=
  bind_c c
    (if Nat.eqb (length prefixes) 0 then
       lift (Ok ([(key_seed (ctx_key c), key_bit (ctx_key c))], c, 0%nat))
     else
       '(st, c1) <~ compute_partial_evaluations_f prefixes (Z.to_nat (c_prev c)) (Nat.ltb h (nlevels d - 1)) c ;;
       start_level <~ lift (atz_or_ub (d_h2t d) (c_prev c1)) ;;
       lift (Ok (st, c1, start_level)))
    (fun x => let '(st, c1, start_level) := x in
       bind_c c1
         (stop_level <~ lift (at_or_ub (d_h2t d) h) ;;
          cws <~ lift (subspan (k_cws (ctx_key c1)) start_level (stop_level - start_level)) ;;
          expand_seeds_f st cws)
         (fun e => done (with_prev c1 (Z.of_nat h)) (lift (Ok e)))).

(** EvaluateUntil<T>, distributed_point_function.h:698-900. *)
Definition evaluate_until_f (T : cty) (h : Z) (prefixes : list N) (c : ectx) : cio (list cval) :=
  bind_c c (lift (evaluate_until_checks d T h prefixes c)) (fun gap =>
  let h := Z.to_nat h in
  let '(tree_indices, prefix_map) := build_prefix_map d prefixes (Z.to_nat (c_prev c)) [] in
  bind_cc (expand_and_update_context_f h tree_indices c) (fun expansion c' =>
  done c' (
    hashed <~ hash_expanded_seeds_f (blocks d h) (map fst expansion) ;;
    lift (
      corrections <- value_correction d T (ctx_key c') h ;;
      let cepb := (2 ^ block_bits d h)%nat in
      blocks_out <- mapM (fun i_st : nat * node =>
          elements <- convert_bytes T (block_bytes (blocks d h) hashed (fst i_st)) ;;
          mapM (correct_element T (k_party (ctx_key c')) (snd (snd i_st))
                  elements corrections) (seq 0 cepb))
        (combine (seq 0 (length expansion)) expansion) ;;
      let corrected := concat blocks_out in
      if Nat.eqb (length prefixes) 0 then Ok corrected
      else
        let bptp := to_int32 (Z.of_nat (length expansion / length tree_indices)) in
        parts <- mapM (fun m : nat * nat =>
            copy_range corrected
              (Z.of_nat (fst m) * bptp * Z.of_nat cepb
               + Z.of_nat (snd m) * Z.of_nat (2 ^ gap)) (2 ^ gap)) prefix_map ;;
        Ok (concat parts))))).

(** EvaluateNext<T>, distributed_point_function.h:327-336. *)
Definition evaluate_next_f (T : cty) (prefixes : list N) (c : ectx) : cio (list cval) :=
  if Nat.eqb (length prefixes) 0 then evaluate_until_f T 0 prefixes c
  else evaluate_until_f T (c_prev c + 1) prefixes c.

(** The end of EvaluateAtImpl, distributed_point_function.h:1022-1069. *)
Definition evaluate_at_finish_f (T : cty) (key : dkey) (h : nat) (points tree_indices : list N)
    (st : list node) (start_level : nat) : io (list cval) :=
  stop_level <~ lift (at_or_ub (d_h2t d) h) ;;
  cws <~ lift (subspan (k_cws key) start_level (stop_level - start_level)) ;;
  st <~ evaluate_seeds_f st tree_indices cws ;;
  hashed <~ hash_expanded_seeds_f (blocks d h) (map fst st) ;;
  lift (
    corrections <- value_correction d T key h ;;
    mapM (fun ix : nat * (N * node) =>
        elements <- convert_bytes T (block_bytes (blocks d h) hashed (fst ix)) ;;
        let index := if Nat.ltb 1 (elements_per_block T)
                     then domain_to_block_index d (fst (snd ix)) h else 0%nat in
        correct_element T (k_party key) (snd (snd (snd ix))) elements corrections index)
      (combine (seq 0 (length points)) (combine points st))).

(** EvaluateAt<T>(key, hierarchy_level, evaluation_points), distributed_point_function.h:922-1079. *)
Definition evaluate_at_f (T : cty) (key : dkey) (h : Z) (points : list N) : io (list cval) :=
  _ <~ lift (evaluate_at_checks d key h points) ;;
  if Nat.eqb (length points) 0 then lift (Ok [])
  else
    evaluate_at_finish_f T key (Z.to_nat h) points
      (evaluate_at_indices d T (Z.to_nat h) points)
      (map (fun _ => (key_seed key, key_bit key)) points) 0.

(** EvaluateAt<T>(hierarchy_level, evaluation_points, ctx), distributed_point_function.h:922-1079. *)
Definition evaluate_at_ctx_f (T : cty) (h : Z) (points : list N) (c : ectx) : cio (list cval) :=
  let key := ctx_key c in
  bind_c c (lift (evaluate_at_checks d key h points)) (fun _ =>
  if Nat.eqb (length points) 0 then done c (lift (Ok []))
  else
    let h := Z.to_nat h in
    let tree_indices := evaluate_at_indices d T h points in
    bind_c c (compute_partial_evaluations_f tree_indices h true c) (fun x => let '(st, c1) := x in
    bind_c c1 (evaluate_at_finish_f T key h points tree_indices st (h2t d h)) (fun r =>
    done (with_prev c1 (Z.of_nat h)) (lift (Ok r))))).

(** One hierarchy level of EvaluateAndApply, distributed_point_function.h:1113-1190. *)
Definition apply_level_f (T : cty) (keys : list dkey) (points : list N) (rightshift : nat)
    (h start_level stop_level : nat) (st : list node) : io (list cval * list node) :=
  let nkeys := length keys in
  let domain_shift := (rightshift + ld_last d - ld d h)%nat in
  let tree_shift := (rightshift + ld_last d - h2t d h)%nat in
  let n := (stop_level - start_level)%nat in
  st <~ (if Nat.ltb 0 n then
           cws <~ lift (mapM (fun i => mapM (fun key =>
                                         cw <- at_or_ub (k_cws key) (start_level + i) ;;
                                         Ok (corr_of cw)) keys) (seq 0 n)) ;;
           evaluate_seeds_internal_f n (to_int32 (Z.of_nat n * Z.of_nat nkeys)) st points
             tree_shift (concat cws)
         else lift (Ok st)) ;;
  hashed <~ hash_expanded_seeds_f (blocks d h) (map fst st) ;;
  lift (
    values <- mapM (fun ik : nat * (dkey * (N * node)) =>
        let '(i, (key, (x, n))) := ik in
        elements <- convert_bytes T (block_bytes (blocks d h) hashed i) ;;
        corrections <- value_correction d T key h ;;
        let index := if Nat.ltb 1 (elements_per_block T) && Nat.ltb domain_shift 128
                     then domain_to_block_index d (N.shiftr x (N.of_nat domain_shift)) h
                     else 0%nat in
        correct_element T (k_party key) (snd n) elements corrections index)
      (combine (seq 0 nkeys) (combine keys (combine points st))) ;;
    Ok (values, st)).

(** The loop over hierarchy levels, distributed_point_function.h:1112-1197. *)
Fixpoint apply_loop_f {S} (T : cty) (keys : list dkey) (points : list N) (rightshift : nat)
    (op : S -> list cval -> S * bool) (n h start_level : nat) (st : list node) (s : S)
  : io S :=
  match n with
  | O => lift (Ok s)
  | Datatypes.S n' =>
      '(values, st') <~ apply_level_f T keys points rightshift h start_level (h2t d h) st ;;
      let '(s', continue) := op s values in
      if continue
      then apply_loop_f T keys points rightshift op n' (Datatypes.S h) (h2t d h) st' s'
      else lift (Ok s')
  end.

(** EvaluateAndApply<T>, distributed_point_function.h:1081-1207. *)
Definition evaluate_and_apply_f {S} (T : cty) (keys : list dkey) (points : list N)
    (op : S -> list cval -> S * bool) (rightshift : nat) (s : S) : io S :=
  _ <~ lift (check (Nat.eqb (length points) (length keys)) INVALID_ARGUMENT) ;;
  _ <~ lift (iterM (validate_dpf_key d) keys) ;;
  apply_loop_f T keys points rightshift op (nlevels d) 0 0
    (map (fun k => (key_seed k, key_bit k)) keys) s.

End WithDpf.

(** DistributedComparisonFunction::GenerateKeys, distributed_comparison_function.cc:80-102. *)
Definition dcf_generate_keys_f (c : dcf) (alpha : N) (beta : pvalue) : io (dkey * dkey) :=
  values <~ lift (dcf_values (p_ld (dc_param c)) alpha beta) ;;
  generate_keys_f (dc_dpf c) (N.shiftr alpha 1) values.

(** BatchEvaluate, distributed_comparison_function.h:130-184. *)
Definition dcf_batch_evaluate_f (c : dcf) (T : cty) (keys : list dkey) (points : list N)
    (output : list cval) : io (list cval) :=
  _ <~ lift (check (Nat.eqb (length keys) (length points)) INVALID_ARGUMENT) ;;
  _ <~ lift (check (Nat.eqb (length output) (length keys)) INVALID_ARGUMENT) ;;
  let num_keys := to_int32 (Z.of_nat (length keys)) in
  if (num_keys <? 0)%Z then lift Crash
  else
    s <~ evaluate_and_apply_f (dc_dpf c) T (firstn (Z.to_nat num_keys) keys) points
           (dcf_accumulate T (p_ld (dc_param c)) num_keys points) 1
           (Ok (0%Z, map (fun _ => vzero T) output)) ;;
    lift (s <- s ;; Ok (snd s)).

(** BasicRng::Rand128, basic_rng.h:64-73: only the return value 0 counts as a failure.  With other values the bytes of an
    uninitialised array are returned (a call that fails is assumed to write nothing). *)
Definition rand128_f : io N :=
  fun n => (if (status n =? 0)%Z then Err INTERNAL else if (status n =? 1)%Z then Ok (random n) else UB, S n).

(** MultipleIntervalContainmentGate::Gen, multiple_interval_containment.cc:110-209; BasicRng::Create does not fail. *)
Definition mic_gen_f (m : mic) (r_in : N) (r_out : list N) : io (mic_key * mic_key) :=
  let intervals := mp_intervals (m_params m) in
  let group := group_of m in
  _ <~ lift (check (Nat.eqb (length r_out) (length intervals)) INVALID_ARGUMENT) ;;
  _ <~ lift (check (r_in <? group) INVALID_ARGUMENT) ;;
  _ <~ lift (iterM (fun r => check (r <? group) INVALID_ARGUMENT) r_out) ;;
  let gamma := w128 (group - 1 + r_in) mod group in
  '(key0, key1) <~ dcf_generate_keys_f (dcf_register (TInt 128) (m_dcf m)) gamma (to_value (TInt 128) (VNum 1)) ;;
  shares <~ map_f (fun ir : interval * N =>
              let z := mic_correction group r_in (snd ir) (fst ir) in
              rnd <~ rand128_f ;;
              let z0 := w128 rnd mod group in
              let z1 := w128 (z + P128 - z0) mod group in
              lift (Ok (u128_integer z0, u128_integer z1))) (combine intervals r_out) ;;
  lift (Ok ({| mk_dcf := key0; mk_shares := map fst shares |},
            {| mk_dcf := key1; mk_shares := map snd shares |})).

(** BatchEval, multiple_interval_containment.cc:211-308. *)
Definition mic_batch_eval_f (m : mic) (keys : list mic_key) (points : list N) : io (list N) :=
  let intervals := mp_intervals (m_params m) in
  let group := group_of m in
  _ <~ lift (check (Nat.eqb (length keys) (length points)) INVALID_ARGUMENT) ;;
  _ <~ lift (iterM (fun x => check (x <? group) INVALID_ARGUMENT) points) ;;
  if (2147483648 <? N.of_nat (length keys) * N.of_nat (length intervals)) then lift UB
  else
    let tasks := flat_map (fun kx : mic_key * N =>
                   map (fun ji : nat * interval => (kx, ji))
                       (combine (seq 0 (length intervals)) intervals)) (combine keys points) in
    let x_p := map (fun t : (mic_key * N) * (nat * interval) =>
                 w128 (snd (fst t) + group - 1 + (P128 - lower (snd (snd t)))) mod group) tasks in
    let x_q_prime := map (fun t : (mic_key * N) * (nat * interval) =>
                 w128 (snd (fst t) + group - 1
                       + (P128 - w128 (upper (snd (snd t)) + 1) mod group)) mod group) tasks in
    let dcf_keys := map (fun t : (mic_key * N) * (nat * interval) => mk_dcf (fst (fst t))) tasks in
    s_p <~ dcf_batch_evaluate_f (m_dcf m) (TInt 128) dcf_keys x_p (map (fun _ => VNum 0) tasks) ;;
    s_q_prime <~ dcf_batch_evaluate_f (m_dcf m) (TInt 128) dcf_keys x_q_prime
                   (map (fun _ => VNum 0) tasks) ;;
    lift (mapM (fun ts : ((mic_key * N) * (nat * interval)) * (cval * cval) =>
            let '(((k, x), (j, i)), (sp, sq)) := ts in
            mic_output group x k i j (vnum sp) (vnum sq))
         (combine tasks (combine s_p s_q_prime))).

(** Aes128CtrSeededPrng::GenerateSeed, aes_128_ctr_seeded_prng.cc:46-50; also the seed in GenerateParams of the two sparse servers,
    cuckoo_hashing_sparse_dpf_pir_server.cc:65-67 and simple_hashing_sparse_dpf_pir_server.cc:64-66 (strings of 16 bytes that are zero before the
    call of RAND_bytes). *)
Definition generate_seed_f : io bytes :=
  fun n => (Ok (if (status n =? 1)%Z then le_encode 16 (random n) else repeat 0 16), S n).

End Library.
