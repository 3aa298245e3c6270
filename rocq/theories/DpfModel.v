(** Model of the distributed point function: dpf/aes_128_fixed_key_hash.cc,
    dpf/internal/proto_validator.cc, dpf/internal/evaluate_prg_hwy.cc (scalar walk),
    dpf/distributed_point_function.{h,cc}. *)
From Coq Require Import List NArith ZArith QArith Bool.
From Verif Require Import Base ValueTypesModel.
Import ListNotations.
Open Scope N_scope.

(** * Protos *)

(** DpfParameters, distributed_point_function.proto:92-105. *)
Record param := { p_ld : Z; p_vt : option ptype; p_sec : dbl }.

(** CorrectionWord, distributed_point_function.proto:114-126.  Blocks are 128-bit
    numbers; an unset block reads as 0. *)
Record cword := {
  cw_seed : N;
  cw_left : bool;
  cw_right : bool;
  cw_values : list pvalue
}.

(** DpfKey, distributed_point_function.proto:129-140. *)
Record dkey := {
  k_seed : option N;
  k_cws : list cword;
  k_party : Z;
  k_last : list pvalue
}.

(** PartialEvaluation, distributed_point_function.proto:144-152. *)
Record partial := { pe_prefix : N; pe_seed : N; pe_bit : bool }.

(** EvaluationContext, distributed_point_function.proto:156-171. *)
Record ectx := {
  c_params : list param;
  c_key : option dkey;
  c_prev : Z;
  c_partials : list partial;
  c_plevel : Z
}.

(** key.seed() of a key without seed is the default Block
    (distributed_point_function.cc:444 and 496, distributed_point_function.h:997 and 1111). *)
Definition key_seed (k : dkey) : N := match k_seed k with Some s => s | None => 0 end.
(** static_cast<bool>(key.party())
    (distributed_point_function.cc:446 and 498, distributed_point_function.h:998 and 1112). *)
Definition key_bit (k : dkey) : bool := negb (k_party k =? 0)%Z.
(** A default-constructed DpfKey (distributed_point_function.proto:129-140). *)
Definition default_key : dkey := {| k_seed := None; k_cws := []; k_party := 0; k_last := [] |}.
(** ctx.key() (distributed_point_function.cc:444-455). *)
Definition ctx_key (c : ectx) : dkey := match c_key c with Some k => k | None => default_key end.

(** * Doubles *)

(** std::isnan, proto_validator.cc:191. *)
Definition dbl_is_nan (d : dbl) : bool := match d with DNaN => true | _ => false end.
(** Comparison with 0, proto_validator.cc:62, 66 and 121. *)
Definition dbl_is_zero (d : dbl) : bool :=
  match d with DFin q => Qeq_bool q 0 | _ => false end.
(** d < n (proto_validator.cc:194-195). *)
Definition dbl_lt_int (d : dbl) (n : Z) : bool :=
  match d with
  | DFin q => negb (Qle_bool (inject_Z n) q)
  | DInf positive => negb positive
  | DNaN => false
  end.
(** d > n (proto_validator.cc:194-195). *)
Definition dbl_gt_int (d : dbl) (n : Z) : bool :=
  match d with
  | DFin q => negb (Qle_bool q (inject_Z n))
  | DInf positive => positive
  | DNaN => false
  end.

(** GetDefaultSecurityParameter, proto_validator.cc:43-46
    (kDefaultSecurityParameter = 40, proto_validator.h:40). *)
Definition default_sec (p : param) : dbl := DFin (inject_Z (40 + p_ld p)).

(** AlmostEqual, proto_validator.cc:48-50 (kSecurityParameterEpsilon = 0.0001,
    proto_validator.h:43). *)
Definition almost_equal (a b : dbl) : bool :=
  match a, b with
  | DFin x, DFin y => Qle_bool (x - y) (1 # 10000) && Qle_bool (y - x) (1 # 10000)
  | _, _ => false
  end.

(** An unset value_type reads as the default ValueType (proto_validator.cc:71). *)
Definition p_type (p : param) : ptype := match p_vt p with Some t => t | None => PTUnset end.

(** ParametersAreEqual, proto_validator.cc:52-72. *)
Definition parameters_are_equal (l r : param) : res bool :=
  if negb (p_ld l =? p_ld r)%Z then Ok false
  else if negb (almost_equal (p_sec l) (p_sec r)
                || (dbl_is_zero (p_sec l) && almost_equal (p_sec r) (default_sec r))
                || (dbl_is_zero (p_sec r) && almost_equal (p_sec l) (default_sec l)))
  then Ok false
  else value_types_are_equal (p_type l) (p_type r).

(** * Parameter validation *)

(** The loop of ProtoValidator::ValidateParameters, proto_validator.cc:167-202;
    [previous] is None in the first iteration. *)
Fixpoint validate_parameters_loop (ps : list param) (previous : option Z) : res unit :=
  match ps with
  | [] => Ok tt
  | p :: ps' =>
      _ <- check (0 <=? p_ld p)%Z INVALID_ARGUMENT ;;
      _ <- check (p_ld p <=? 128)%Z INVALID_ARGUMENT ;;
      _ <- check (match previous with None => true | Some q => q <? p_ld p end)%Z
                 INVALID_ARGUMENT ;;
      _ <- match p_vt p with
           | Some t => validate_value_type t
           | None => Err INVALID_ARGUMENT
           end ;;
      _ <- check (negb (dbl_is_nan (p_sec p))) INVALID_ARGUMENT ;;
      _ <- check (negb (dbl_lt_int (p_sec p) 0 || dbl_gt_int (p_sec p) 128))
                 INVALID_ARGUMENT ;;
      validate_parameters_loop ps' (Some (p_ld p))
  end.
(** ProtoValidator::ValidateParameters, proto_validator.cc:160-203. *)
Definition validate_parameters (ps : list param) : res unit :=
  _ <- check (negb (Nat.eqb (length ps) 0)) INVALID_ARGUMENT ;;
  validate_parameters_loop ps None.

(** proto_validator.cc:118-126. *)
Definition with_default_sec (p : param) : param :=
  if dbl_is_zero (p_sec p)
  then {| p_ld := p_ld p; p_vt := p_vt p; p_sec := default_sec p |}
  else p.

(** static_cast<int>(std::ceil(std::log2(bits_needed))), proto_validator.cc:138;
    log2(0) is -infinity, whose conversion to int is undefined. *)
Definition log_bits_needed (bits : Z) : res Z :=
  if (bits <=? 0)%Z then UB else Ok (Z.log2_up bits).

(** The loop of ProtoValidator::Create, proto_validator.cc:134-153.  [needed] is
    tree_levels_needed; returns hierarchy_to_tree and the final tree_levels_needed.
    tree_level is never negative since needed is not. *)
Fixpoint tree_levels (F : fops) (ps : list param) (needed : nat)
  : res (list nat * nat) :=
  match ps with
  | [] => Ok ([], needed)
  | p :: ps' =>
      bits <- bits_needed F (p_type p) (p_sec p) ;;
      lb <- log_bits_needed bits ;;
      let tree_level :=
        Z.to_nat (Z.max (Z.of_nat needed) (p_ld p - 7 + Z.min lb 7)) in
      '(rest, total) <- tree_levels F ps' (Nat.max needed (S tree_level)) ;;
      Ok (tree_level :: rest, total)
  end.

(** The members of DistributedPointFunction (distributed_point_function.h) and of its
    ProtoValidator.  [d_h2t] is hierarchy_to_tree_; tree_to_hierarchy_ is its inverse
    (function [tree_to_hierarchy]).  [d_types] are the C++ types T for which
    ComputeValueCorrectionFor<T> is registered in value_correction_functions_
    (distributed_point_function.h:597-641 and proto_validator.h:103-114). *)
Record dpf := {
  d_params : list param;
  d_levels : nat;
  d_h2t : list nat;
  d_blocks : list nat;
  d_types : list cty
}.

(** tree_to_hierarchy_: the last hierarchy level assigned to a tree level
    (proto_validator.cc:151). *)
Fixpoint tree_to_hierarchy_from (h2t : list nat) (i : nat) (tree_level : nat) : option nat :=
  match h2t with
  | [] => None
  | l :: rest =>
      match tree_to_hierarchy_from rest (S i) tree_level with
      | Some h => Some h
      | None => if Nat.eqb l tree_level then Some i else None
      end
  end.
(** tree_to_hierarchy_, distributed_point_function.h:610 and proto_validator.h:111. *)
Definition tree_to_hierarchy (d : dpf) (tree_level : nat) : option nat :=
  tree_to_hierarchy_from (d_h2t d) 0 tree_level.

(** ProtoValidator::Create, proto_validator.cc:113-158. *)
Definition validator_create (F : fops) (ps_in : list param)
  : res (list param * nat * list nat) :=
  _ <- validate_parameters ps_in ;;
  let ps := map with_default_sec ps_in in
  '(h2t, needed) <- tree_levels F ps 0 ;;
  Ok (ps, needed, h2t).

(** The types registered by CreateIncremental, distributed_point_function.cc:622-636. *)
Definition default_types : list cty := [TInt 128; TInt 64; TInt 32; TInt 16; TInt 8].

(** DistributedPointFunction::CreateIncremental, distributed_point_function.cc:592-643.
    (Create, 587-590, is the one-element case.)  Simplification: setting up the AES
    contexts never fails. *)
Definition create_incremental (F : fops) (ps_in : list param) : res dpf :=
  '(ps, needed, h2t) <- validator_create F ps_in ;;
  blocks <- mapM (fun p => bits <- bits_needed F (p_type p) (p_sec p) ;;
                           Ok (Z.to_nat ((bits + 127) / 128))) ps_in ;;
  Ok {| d_params := ps; d_levels := needed; d_h2t := h2t; d_blocks := blocks;
        d_types := default_types |}.

(** RegisterValueType<T>, distributed_point_function.h:131-134 and 648-661.
    Simplification: serialization never fails. *)
Definition register_value_type (T : cty) (d : dpf) : dpf :=
  {| d_params := d_params d; d_levels := d_levels d; d_h2t := d_h2t d;
     d_blocks := d_blocks d; d_types := T :: d_types d |}.

(** * Key and context validation *)

(** ProtoValidator::ValidateDpfKey, proto_validator.cc:205-236. *)
Definition validate_dpf_key (d : dpf) (key : dkey) : res unit :=
  _ <- check (match k_seed key with Some _ => true | None => false end)
             INVALID_ARGUMENT ;;
  _ <- check (negb (Nat.eqb (length (k_last key)) 0)) INVALID_ARGUMENT ;;
  _ <- check (Z.of_nat (length (k_cws key)) =? Z.of_nat (d_levels d) - 1)%Z
             INVALID_ARGUMENT ;;
  iterM (fun t =>
    if (Z.of_nat t =? Z.of_nat (d_levels d) - 1)%Z then Ok tt
    else
      cw <- at_or_ub (k_cws key) t ;;
      check (negb (Nat.eqb (length (cw_values cw)) 0)) INVALID_ARGUMENT)
    (d_h2t d).

(** The loop of ValidateEvaluationContext over the parameters,
    proto_validator.cc:244-251. *)
Fixpoint parameters_match (ps cs : list param) : res unit :=
  match ps, cs with
  | p :: ps', c :: cs' =>
      e <- parameters_are_equal p c ;;
      _ <- check e INVALID_ARGUMENT ;;
      parameters_match ps' cs'
  | _, _ => Ok tt
  end.

(** ProtoValidator::ValidateEvaluationContext, proto_validator.cc:238-267. *)
Definition validate_evaluation_context (d : dpf) (c : ectx) : res unit :=
  _ <- check (Nat.eqb (length (c_params c)) (length (d_params d))) INVALID_ARGUMENT ;;
  _ <- parameters_match (d_params d) (c_params c) ;;
  key <- match c_key c with Some k => Ok k | None => Err INVALID_ARGUMENT end ;;
  _ <- validate_dpf_key d key ;;
  _ <- check (negb (Z.of_nat (length (c_params c)) - 1 <=? c_prev c)%Z) INVALID_ARGUMENT ;;
  check (negb (negb (Nat.eqb (length (c_partials c)) 0) && (c_prev c <? c_plevel c)%Z))
        INVALID_ARGUMENT.

(** CreateEvaluationContext, distributed_point_function.cc:715-730. *)
Definition create_evaluation_context (d : dpf) (key : dkey) : res ectx :=
  _ <- validate_dpf_key d key ;;
  Ok {| c_params := d_params d; c_key := Some key; c_prev := -1;
        c_partials := []; c_plevel := 0 |}.

(** * Fixed-key hash *)

(** sigma, aes_128_fixed_key_hash.cc:74-80. *)
Definition sigma (x : N) : N := mk128 (N.lxor (hi64 x) (lo64 x)) (hi64 x).

(** PRG keys, distributed_point_function.cc:57-62. *)
Definition kPrgKeyLeft : N := mk128 0x5be037ccf6a03de5 0x935f08d0a5b6a2fd.
(** kPrgKeyRight, distributed_point_function.cc:57-62. *)
Definition kPrgKeyRight : N := mk128 0xef94b6aedebb026c 0xe2ea1fe0f66f4d0b.
(** kPrgKeyValue, distributed_point_function.cc:57-62. *)
Definition kPrgKeyValue : N := mk128 0x05a5d1588c5423e3 0x46a31101b21d1c98.

(** ExtractAndClearLowestBit, evaluate_prg_hwy.h:32-36, as two functions. *)
Definition lowest_bit (x : N) : bool := N.odd x.
(** The seed without its lowest bit, ExtractAndClearLowestBit, evaluate_prg_hwy.h:32-36. *)
Definition clear_lowest (x : N) : N := N.ldiff x 1.

Section Aes.
(** AES-128 encryption of one block under a key (OpenSSL); any function. *)
Variable aes : N -> N -> N.

(** Aes128FixedKeyHash::kBatchSize, aes_128_fixed_key_hash.h:70. *)
Definition batch_size : nat := 64.

(** Aes128FixedKeyHash::Evaluate for spans of equal size,
    aes_128_fixed_key_hash.cc:59-100: in batches, apply sigma, encrypt every block of
    the batch in ECB mode, XOR with the batch of sigma values.  Simplification: OpenSSL
    never fails. *)
Definition prg_evaluate (key : N) (input : list N) : list N :=
  concat (map (fun batch =>
                 let sigma_in := map sigma batch in
                 zip2 N.lxor (map (aes key) sigma_in) sigma_in)
              (chunks batch_size input)).
(** Evaluate with its size check; [out_size] is the size of the output span
    (aes_128_fixed_key_hash.cc:59-100). *)
Definition prg_evaluate_checked (key : N) (input : list N) (out_size : nat) : res (list N) :=
  _ <- check (Nat.eqb (length input) out_size) INVALID_ARGUMENT ;;
  Ok (prg_evaluate key input).

(** * Tree walks *)

(** A seed with its control bit (evaluate_prg_hwy.cc:554). *)
Definition node := (N * bool)%type.
(** Correction of one level as passed to dpf_internal::EvaluateSeeds: seed, left and
    right control bit (evaluate_prg_hwy.cc:556-557). *)
Definition corr := (N * (bool * bool))%type.
(** From the correction word of a key,
    distributed_point_function.cc:272 and distributed_point_function.h:1146. *)
Definition corr_of (cw : cword) : corr := (cw_seed cw, (cw_left cw, cw_right cw)).

(** One level of EvaluateSeedsNoHwy for one seed of the batch,
    evaluate_prg_hwy.cc:585-628. [left] and [right] are its entries in the PRG buffers. *)
Definition walk_one (num_seeds num_levels level : nat) (ncw : Z) (rightshift : nat)
    (cws : list corr) (index : nat) (path : N) (bit : bool) (left right : N)
  : res node :=
  let bit_index := (num_levels - level - 1 + rightshift)%nat in
  let path_bit := Nat.ltb bit_index 128 && N.testbit path (N.of_nat bit_index) in
  let s := if path_bit then right else left in
  let ci := if (Z.of_nat num_levels <? ncw)%Z
            then (level * num_seeds + index)%nat else level in
  if bit then
    c <- at_or_ub cws ci ;;
    let s := N.lxor s (fst c) in
    let cc := if path_bit then snd (snd c) else fst (snd c) in
    Ok (clear_lowest s, xorb (lowest_bit s) cc)
  else Ok (clear_lowest s, lowest_bit s).

Section Walk4.
  Variable f : nat -> N -> bool -> N -> N -> res node.
  (** for (i = 0; i < current_batch_size; ++i) over paths, control bits and buffers
      (evaluate_prg_hwy.cc:585-628). *)
  Fixpoint walk_batch_loop (index : nat) (paths : list N) (st : list node)
      (left right : list N) : res (list node) :=
    match paths, st, left, right with
    | p :: paths', (_, b) :: st', l :: left', r :: right' =>
        x <- f index p b l r ;;
        xs <- walk_batch_loop (S index) paths' st' left' right' ;;
        Ok (x :: xs)
    | _, _, _, _ => Ok []
    end.
End Walk4.

(** One level for one batch starting at [start], evaluate_prg_hwy.cc:571-629. *)
Definition walk_batch_level (num_seeds num_levels : nat) (ncw : Z) (rightshift : nat)
    (cws : list corr) (start : nat) (paths : list N) (level : nat) (st : list node)
  : res (list node) :=
  let left := prg_evaluate kPrgKeyLeft (map fst st) in
  let right := prg_evaluate kPrgKeyRight (map fst st) in
  walk_batch_loop (walk_one num_seeds num_levels level ncw rightshift cws)
                  start paths st left right.

(** The loop over batches of EvaluateSeedsNoHwy, evaluate_prg_hwy.cc:565-631. *)
Fixpoint walk_batches (num_seeds num_levels : nat) (ncw : Z) (rightshift : nat)
    (cws : list corr) (start : nat) (batches : list (list (N * node)))
  : res (list node) :=
  match batches with
  | [] => Ok []
  | b :: rest =>
      x <- foldM (fun st level =>
                    walk_batch_level num_seeds num_levels ncw rightshift cws start
                      (map fst b) level st)
                 (seq 0 num_levels) (map snd b) ;;
      xs <- walk_batches num_seeds num_levels ncw rightshift cws
              (start + length b) rest ;;
      Ok (x ++ xs)
  end.

(** dpf_internal::EvaluateSeeds, evaluate_prg_hwy.cc:638-658, dispatching to the scalar
    walk EvaluateSeedsNoHwy, 552-634.  [st] are seeds_in and control_bits_in.
    Simplification: the rightshift is non-negative. *)
Definition evaluate_seeds_internal (num_levels : nat) (ncw : Z) (st : list node)
    (paths : list N) (rightshift : nat) (cws : list corr) : res (list node) :=
  let num_seeds := length st in
  _ <- check (negb (negb (ncw =? Z.of_nat num_levels)%Z
                    && negb (ncw =? Z.of_nat num_levels * Z.of_nat num_seeds)%Z))
             INVALID_ARGUMENT ;;
  walk_batches num_seeds num_levels ncw rightshift cws 0
    (chunks batch_size (combine paths st)).

(** DistributedPointFunction::EvaluateSeeds, distributed_point_function.cc:243-289.
    Simplification: seeds_out and control_bits_out have the size of the inputs (all
    callers evaluate in place). *)
Definition evaluate_seeds (st : list node) (paths : list N) (cws : list cword)
  : res (list node) :=
  _ <- check (Nat.eqb (length st) (length paths)) INVALID_ARGUMENT ;;
  if Nat.eqb (length st) 0 || Nat.eqb (length cws) 0 then Ok st
  else evaluate_seeds_internal (length cws) (Z.of_nat (length cws)) st paths 0
         (map corr_of cws).

(** One expansion of a batch in ExpandSeeds, distributed_point_function.cc:337-367. *)
Definition expand_batch (cw : cword) (batch : list node) : list node :=
  let left := prg_evaluate kPrgKeyLeft (map fst batch) in
  let right := prg_evaluate kPrgKeyRight (map fst batch) in
  concat (zip3 (fun (st : node) l r =>
                  let b := snd st in
                  let l := if b then N.lxor l (cw_seed cw) else l in
                  let r := if b then N.lxor r (cw_seed cw) else r in
                  [ (clear_lowest l, xorb (lowest_bit l) (b && cw_left cw));
                    (clear_lowest r, xorb (lowest_bit r) (b && cw_right cw)) ])
               batch left right).
(** One level of ExpandSeeds, distributed_point_function.cc:291-375. *)
Definition expand_level (cw : cword) (st : list node) : list node :=
  concat (map (expand_batch cw) (chunks batch_size st)).

(** ExpandSeeds, distributed_point_function.cc:291-375.  The output size is truncated
    to a size_t before the buffers are allocated; a truncated size means writing past
    the end.  Allocations fail only when the number of bytes overflows a size_t
    (hwy::AllocateAligned); other out-of-memory conditions are not modelled. *)
Definition expand_seeds (st : list node) (cws : list cword) : res (list node) :=
  let output_size := N.of_nat (length st) * 2 ^ N.of_nat (length cws) in
  if P64 <=? output_size then UB
  else if 2 ^ 60 <=? output_size then Err RESOURCE_EXHAUSTED
  else Ok (fold_left (fun s cw => expand_level cw s) cws st).

(** absl::Span::subspan(pos, len) on the correction words; pos > size throws
    (distributed_point_function.cc:456 and 519, distributed_point_function.h:1028). *)
Definition subspan {A} (l : list A) (pos len : nat) : res (list A) :=
  if Nat.leb pos (length l) then Ok (firstn len (skipn pos l)) else Crash.

(** HashExpandedSeeds, distributed_point_function.cc:526-550. *)
Definition hash_expanded_seeds (blocks : nat) (seeds : list N) : list N :=
  prg_evaluate kPrgKeyValue
    (concat (map (fun s => map (fun j => w128 (s + N.of_nat j)) (seq 0 blocks)) seeds)).

(** string_view over blocks i*blocks_needed, ..., (i+1)*blocks_needed-1
    (distributed_point_function.cc:114-116, distributed_point_function.h:863, 1057 and 1177). *)
Definition blocks_to_bytes (bs : list N) : bytes := concat (map (le_encode 16) bs).
(** The bytes of the blocks of one seed,
    distributed_point_function.cc:114-116, distributed_point_function.h:863, 1057 and 1177. *)
Definition block_bytes (blocks : nat) (hashed : list N) (i : nat) : bytes :=
  blocks_to_bytes (firstn blocks (skipn (i * blocks) hashed)).

Section WithDpf.
Variable d : dpf.

(** parameters_[h].log_domain_size(), hierarchy_to_tree_[h], blocks_needed_[h] for
    levels that are in range (the callers index with checked levels)
    (distributed_point_function.h:602). *)
Definition ld (h : nat) : nat :=
  match nth_error (d_params d) h with Some p => Z.to_nat (p_ld p) | None => 0%nat end.
(** hierarchy_to_tree_[h], distributed_point_function.h:613. *)
Definition h2t (h : nat) : nat := nth h (d_h2t d) 0%nat.
(** blocks_needed_[h], distributed_point_function.h:617. *)
Definition blocks (h : nat) : nat := nth h (d_blocks d) 0%nat.
(** parameters_.size(), distributed_point_function.h:602. *)
Definition nlevels : nat := length (d_params d).
(** parameters_.back().log_domain_size() (distributed_point_function.cc:139 and 662). *)
Definition ld_last : nat := ld (nlevels - 1).
(** block_index_bits in DomainToTreeIndex; never negative (C10)
    (distributed_point_function.cc:228-229). *)
Definition block_bits (h : nat) : nat := (ld h - h2t h)%nat.

(** DomainToTreeIndex, distributed_point_function.cc:226-232. *)
Definition domain_to_tree_index (x : N) (h : nat) : N := N.shiftr x (N.of_nat (block_bits h)).
(** DomainToBlockIndex, distributed_point_function.cc:234-241; block_index_bits is at
    most 7 (C10), so the conversion to int is exact. *)
Definition domain_to_block_index (x : N) (h : nat) : nat :=
  N.to_nat (N.land x (N.ones (N.of_nat (block_bits h)))).

(** * Key generation *)

(** Equality of ValueType protos by their deterministic serialization
    (distributed_point_function.cc:553-576). *)
Definition vinteger_eqb (a b : vinteger) : bool :=
  match a, b with
  | VIUnset, VIUnset => true
  | VI64 x, VI64 y => x =? y
  | VI128 x y, VI128 z w => (x =? z) && (y =? w)
  | _, _ => false
  end.
(** Equality of value types as keys of value_correction_functions_,
    distributed_point_function.cc:553-576 and distributed_point_function.h:654. *)
Fixpoint ptype_eqb (a b : ptype) : bool :=
  match a, b with
  | PTUnset, PTUnset => true
  | PTInteger x, PTInteger y => (x =? y)%Z
  | PTTuple l, PTTuple r => all2 ptype_eqb l r
  | PTIntModN x m, PTIntModN y n => (x =? y)%Z && vinteger_eqb m n
  | PTXor x, PTXor y => (x =? y)%Z
  | _, _ => false
  end.

(** GetValueCorrectionFunction, distributed_point_function.cc:570-585: the registered
    type, if any. *)
Definition get_value_correction_function (vt : ptype) : res cty :=
  match find (fun T => ptype_eqb (to_value_type T) vt) (d_types d) with
  | Some T => Ok T
  | None => Err FAILED_PRECONDITION
  end.

(** ComputeValueCorrection, distributed_point_function.cc:83-119. *)
Definition compute_value_correction (h : nat) (seed_a seed_b : N) (alpha : N)
    (beta : pvalue) (invert : bool) : res (list pvalue) :=
  let expanded s := map (fun j => w128 (s + N.of_nat j)) (seq 0 (blocks h)) in
  let hashed := prg_evaluate kPrgKeyValue (expanded seed_a ++ expanded seed_b) in
  let index := domain_to_block_index alpha h in
  p <- at_or_ub (d_params d) h ;;
  T <- get_value_correction_function (p_type p) ;;
  compute_value_correction_for T (block_bytes (blocks h) hashed 0)
    (block_bytes (blocks h) hashed 1) index beta invert.

(** State of the key generation loop: seeds and control bits of the two parties
    (distributed_point_function.cc:681-700). *)
Record gstate := { g_seed0 : N; g_seed1 : N; g_bit0 : bool; g_bit1 : bool }.

(** alpha >> shift_amount with shifts of 128 or more giving 0
    (distributed_point_function.cc:139-145). *)
Definition shr128 (x : N) (n : nat) : N := if Nat.ltb n 128 then N.shiftr x (N.of_nat n) else 0.

(** GenerateNext, distributed_point_function.cc:123-224; returns the correction word
    that is added to both keys. *)
Definition generate_next (tree_level : nat) (alpha : N) (beta : list pvalue) (g : gstate)
  : res (gstate * cword) :=
  values <- match tree_to_hierarchy d (tree_level - 1) with
            | Some h =>
                let alpha_prefix := shr128 alpha (ld_last - ld h) in
                b <- at_or_ub beta h ;;
                compute_value_correction h (g_seed0 g) (g_seed1 g) alpha_prefix b (g_bit1 g)
            | None => Ok []
            end ;;
  let exp_l := prg_evaluate kPrgKeyLeft [g_seed0 g; g_seed1 g] in
  let exp_r := prg_evaluate kPrgKeyRight [g_seed0 g; g_seed1 g] in
  l0 <- at_or_ub exp_l 0 ;; l1 <- at_or_ub exp_l 1 ;;
  r0 <- at_or_ub exp_r 0 ;; r1 <- at_or_ub exp_r 1 ;;
  let bl0 := lowest_bit l0 in let bl1 := lowest_bit l1 in
  let br0 := lowest_bit r0 in let br1 := lowest_bit r1 in
  let l0 := clear_lowest l0 in let l1 := clear_lowest l1 in
  let r0 := clear_lowest r0 in let r1 := clear_lowest r1 in
  let current_bit := Nat.ltb (ld_last - tree_level) 128
                     && N.testbit alpha (N.of_nat (ld_last - tree_level)) in
  let seed_correction := if current_bit then N.lxor l0 l1 else N.lxor r0 r1 in
  let ccl := xorb (xorb (xorb bl0 bl1) current_bit) true in
  let ccr := xorb (xorb br0 br1) current_bit in
  let keep0 := if current_bit then r0 else l0 in
  let keep1 := if current_bit then r1 else l1 in
  let bkeep0 := if current_bit then br0 else bl0 in
  let bkeep1 := if current_bit then br1 else bl1 in
  let cckeep := if current_bit then ccr else ccl in
  Ok ({| g_seed0 := if g_bit0 g then N.lxor keep0 seed_correction else keep0;
         g_seed1 := if g_bit1 g then N.lxor keep1 seed_correction else keep1;
         g_bit0 := xorb bkeep0 (g_bit0 g && cckeep);
         g_bit1 := xorb bkeep1 (g_bit1 g && cckeep) |},
      {| cw_seed := seed_correction; cw_left := ccl; cw_right := ccr;
         cw_values := values |}).

(** The loop of distributed_point_function.cc:693-697 over tree levels
    i, ..., i + n - 1. *)
Fixpoint generate_loop (n i : nat) (alpha : N) (beta : list pvalue) (g : gstate)
  : res (gstate * list cword) :=
  match n with
  | O => Ok (g, [])
  | S n' =>
      '(g1, cw) <- generate_next i alpha beta g ;;
      '(g2, cws) <- generate_loop n' (S i) alpha beta g1 ;;
      Ok (g2, cw :: cws)
  end.

(** The loop over ValidateValue, distributed_point_function.cc:654-659. *)
Fixpoint validate_betas (ps : list param) (beta : list pvalue) : res unit :=
  match ps, beta with
  | p :: ps', b :: beta' => _ <- validate_value (p_type p) b ;; validate_betas ps' beta'
  | _, _ => Ok tt
  end.

(** GenerateKeysIncremental, distributed_point_function.cc:645-713; [seed0] and [seed1]
    are the results of the two RAND_bytes calls. *)
Definition generate_keys (alpha : N) (beta : list pvalue) (seed0 seed1 : N)
  : res (dkey * dkey) :=
  _ <- check (Nat.eqb (length beta) nlevels) INVALID_ARGUMENT ;;
  _ <- validate_betas (d_params d) beta ;;
  _ <- check (negb (Nat.ltb ld_last 128 && (2 ^ N.of_nat ld_last <=? alpha)))
             INVALID_ARGUMENT ;;
  '(g, cws) <- generate_loop (d_levels d - 1) 1 alpha beta
                 {| g_seed0 := seed0; g_seed1 := seed1; g_bit0 := false; g_bit1 := true |} ;;
  b <- at_or_ub beta (nlevels - 1) ;;
  last <- compute_value_correction (nlevels - 1) (g_seed0 g) (g_seed1 g) alpha b (g_bit1 g) ;;
  Ok ({| k_seed := Some seed0; k_cws := cws; k_party := 0; k_last := last |},
      {| k_seed := Some seed1; k_cws := cws; k_party := 1; k_last := last |}).

(** * Evaluation *)

(** GetValueCorrectionAsArray, distributed_point_function.h:902-920 (the same code is
    inlined in EvaluateUntil, 826-847). *)
Definition value_correction (T : cty) (key : dkey) (h : nat) : res (list cval) :=
  if Nat.ltb h (nlevels - 1) then
    cw <- at_or_ub (k_cws key) (h2t h) ;;
    values_to_array T (cw_values cw)
  else values_to_array T (k_last key).

(** Correction and negation of one output element,
    distributed_point_function.h:1060-1067 (also 862-872 and 1183-1189). *)
Definition correct_element (T : cty) (party : Z) (bit : bool) (elements corrections : list cval)
    (index : nat) : res cval :=
  e <- at_or_ub elements index ;;
  e <- (if bit then c <- at_or_ub corrections index ;; Ok (vadd T e c) else Ok e) ;;
  Ok (if (party =? 1)%Z then vneg T e else e).

(** btree_map lookup with the semantics of try_emplace: the first entry for a prefix
    wins (distributed_point_function.cc:392-411). *)
Fixpoint lookup_partial (l : list partial) (prefix : N) : option node :=
  match l with
  | [] => None
  | e :: l' => if pe_prefix e =? prefix then Some (pe_seed e, pe_bit e)
               else lookup_partial l' prefix
  end.
(** The duplicate check of distributed_point_function.cc:405-411. *)
Fixpoint partials_consistent (l seen : list partial) : bool :=
  match l with
  | [] => true
  | e :: l' =>
      (match lookup_partial seen (pe_prefix e) with
       | Some (s, b) => (s =? pe_seed e) && Bool.eqb b (pe_bit e)
       | None => true
       end) && partials_consistent l' (seen ++ [e])
  end.

(** ComputePartialEvaluations, distributed_point_function.cc:377-479.  The context is
    only modified at the end, after every step that can fail; on failure the caller's
    context is unchanged.  hierarchy_to_tree_ is indexed with the context's
    partial_evaluations_level without a check. *)
Definition compute_partial_evaluations (prefixes : list N) (h : nat) (update_ctx : bool)
    (c : ectx) : res (list node * ectx) :=
  start_level <- atz_or_ub (d_h2t d) (c_plevel c) ;;
  stop_level <- at_or_ub (d_h2t d) h ;;
  '(st, start_level) <-
    (if negb (Nat.eqb (length (c_partials c)) 0) && Nat.leb start_level stop_level then
       _ <- check (partials_consistent (c_partials c) []) INVALID_ARGUMENT ;;
       st <- mapM (fun prefix =>
                     match lookup_partial (c_partials c)
                             (shr128 prefix (stop_level - start_level)) with
                     | Some n => Ok n
                     | None => Err INVALID_ARGUMENT
                     end) prefixes ;;
       Ok (st, start_level)
     else
       Ok (map (fun _ => (key_seed (ctx_key c), key_bit (ctx_key c))) prefixes, 0%nat)) ;;
  cws <- subspan (k_cws (ctx_key c)) start_level (stop_level - start_level) ;;
  st <- evaluate_seeds st prefixes cws ;;
  Ok (st, {| c_params := c_params c; c_key := c_key c; c_prev := c_prev c;
             c_partials := if update_ctx
                           then zip2 (fun p (n : node) =>
                                        {| pe_prefix := p; pe_seed := fst n; pe_bit := snd n |})
                                     prefixes st
                           else [];
             c_plevel := Z.of_nat h |}).

(** ctx with another previous_hierarchy_level,
    distributed_point_function.cc:522 and distributed_point_function.h:1075. *)
Definition with_prev (c : ectx) (h : Z) : ectx :=
  {| c_params := c_params c; c_key := c_key c; c_prev := h;
     c_partials := c_partials c; c_plevel := c_plevel c |}.

(** ExpandAndUpdateContext, distributed_point_function.cc:481-524, with the context
    after the call (also when it fails). *)
Definition expand_and_update_context (h : nat) (prefixes : list N) (c : ectx)
  : res (list node) * ectx :=
  match
    (if Nat.eqb (length prefixes) 0 then
       Ok ([(key_seed (ctx_key c), key_bit (ctx_key c))], c, 0%nat)
     else
       '(st, c1) <- compute_partial_evaluations prefixes (Z.to_nat (c_prev c))
                      (Nat.ltb h (nlevels - 1)) c ;;
       start_level <- atz_or_ub (d_h2t d) (c_prev c1) ;;
       Ok (st, c1, start_level))
  with
  | Ok (st, c1, start_level) =>
      match (stop_level <- at_or_ub (d_h2t d) h ;;
             cws <- subspan (k_cws (ctx_key c1)) start_level (stop_level - start_level) ;;
             expand_seeds st cws) with
      | Ok e => (Ok e, with_prev c1 (Z.of_nat h))
      | Err e => (Err e, c1)
      | Crash => (Crash, c1)
      | UB => (UB, c1)
      end
  | Err e => (Err e, c)
  | Crash => (Crash, c)
  | UB => (UB, c)
  end.

(** Position of a tree index in tree_indices (the btree_map tree_indices_inverse)
    (distributed_point_function.h:789-807). *)
Fixpoint index_of (x : N) (l : list N) : option nat :=
  match l with
  | [] => None
  | y :: l' => if y =? x then Some O else option_map S (index_of x l')
  end.
(** The deduplication loop, distributed_point_function.h:789-803: tree_indices and
    prefix_map. *)
Fixpoint build_prefix_map (prefixes : list N) (h : nat) (tree_indices : list N)
  : list N * list (nat * nat) :=
  match prefixes with
  | [] => (tree_indices, [])
  | p :: rest =>
      let ti := domain_to_tree_index p h in
      let bi := domain_to_block_index p h in
      match index_of ti tree_indices with
      | Some k =>
          let '(tis, pm) := build_prefix_map rest h tree_indices in (tis, (k, bi) :: pm)
      | None =>
          let '(tis, pm) := build_prefix_map rest h (tree_indices ++ [ti]) in
          (tis, (length tree_indices, bi) :: pm)
      end
  end.

(** std::copy_n(&v[start], n, ...): undefined behaviour outside of v
    (distributed_point_function.h:895). *)
Definition copy_range {A} (l : list A) (start : Z) (n : nat) : res (list A) :=
  if (start <? 0)%Z || (Z.of_nat (length l) <? start + Z.of_nat n)%Z then UB
  else Ok (firstn n (skipn (Z.to_nat start) l)).

(** The argument checks of EvaluateUntil, distributed_point_function.h:702-758; returns
    outputs_per_prefix as its logarithm. *)
Definition evaluate_until_checks (T : cty) (h : Z) (prefixes : list N) (c : ectx)
  : res nat :=
  _ <- validate_evaluation_context d c ;;
  _ <- check (negb ((h <? 0)%Z || (Z.of_nat nlevels <=? h)%Z)) INVALID_ARGUMENT ;;
  p <- atz_or_ub (d_params d) h ;;
  e <- value_types_are_equal (to_value_type T) (p_type p) ;;
  _ <- check e INVALID_ARGUMENT ;;
  _ <- check (negb (h <=? c_prev c)%Z) INVALID_ARGUMENT ;;
  _ <- check (Bool.eqb (c_prev c <? 0)%Z (Nat.eqb (length prefixes) 0)) INVALID_ARGUMENT ;;
  previous_ld <-
    (if Nat.eqb (length prefixes) 0 then Ok 0%nat
     else
       pp <- atz_or_ub (d_params d) (c_prev c) ;;
       let pl := Z.to_nat (p_ld pp) in
       _ <- iterM (fun prefix =>
              check (negb (Nat.ltb pl 128 && (2 ^ N.of_nat pl <=? prefix)))
                    INVALID_ARGUMENT) prefixes ;;
       Ok pl) ;;
  let gap := (ld (Z.to_nat h) - previous_ld)%nat in
  _ <- check (negb (Nat.leb 63 gap)) INVALID_ARGUMENT ;;
  _ <- check (negb (9223372036854775807 <?
                    (N.of_nat (length prefixes) * 2 ^ N.of_nat gap) mod P128))
             INVALID_ARGUMENT ;;
  Ok gap.

(** EvaluateUntil<T>, distributed_point_function.h:698-900, with the context after the
    call. *)
Definition evaluate_until (T : cty) (h : Z) (prefixes : list N) (c : ectx)
  : res (list cval) * ectx :=
  match evaluate_until_checks T h prefixes c with
  | Err e => (Err e, c)
  | Crash => (Crash, c)
  | UB => (UB, c)
  | Ok gap =>
      let h := Z.to_nat h in
      let '(tree_indices, prefix_map) := build_prefix_map prefixes (Z.to_nat (c_prev c)) [] in
      let '(expansion, c') := expand_and_update_context h tree_indices c in
      (expansion <- expansion ;;
       let hashed := hash_expanded_seeds (blocks h) (map fst expansion) in
       corrections <- value_correction T (ctx_key c') h ;;
       let cepb := (2 ^ block_bits h)%nat in
       blocks_out <- mapM (fun i_st : nat * node =>
           elements <- convert_bytes T (block_bytes (blocks h) hashed (fst i_st)) ;;
           mapM (correct_element T (k_party (ctx_key c')) (snd (snd i_st))
                   elements corrections) (seq 0 cepb))
         (combine (seq 0 (length expansion)) expansion) ;;
       let corrected := concat blocks_out in
       if Nat.eqb (length prefixes) 0 then Ok corrected
       else
         let bptp := to_int32 (Z.of_nat (length expansion / length tree_indices)) in
         parts <- mapM (fun m : nat * nat =>
             copy_range corrected
               (Z.of_nat (fst m) * bptp * Z.of_nat cepb
                + Z.of_nat (snd m) * Z.of_nat (2 ^ gap)) (2 ^ gap)) prefix_map ;;
         Ok (concat parts), c')
  end.

(** EvaluateNext<T>, distributed_point_function.h:327-336. *)
Definition evaluate_next (T : cty) (prefixes : list N) (c : ectx)
  : res (list cval) * ectx :=
  if Nat.eqb (length prefixes) 0 then evaluate_until T 0 prefixes c
  else evaluate_until T (c_prev c + 1) prefixes c.

(** The argument checks of EvaluateAtImpl, distributed_point_function.h:932-965. *)
Definition evaluate_at_checks (key : dkey) (h : Z) (points : list N) : res unit :=
  _ <- check (0 <=? h)%Z INVALID_ARGUMENT ;;
  _ <- check (h <? Z.of_nat nlevels)%Z INVALID_ARGUMENT ;;
  let l := ld (Z.to_nat h) in
  let max_point := if Nat.ltb l 128 then 2 ^ N.of_nat l - 1 else P128 - 1 in
  _ <- iterM (fun x => check (x <=? max_point) INVALID_ARGUMENT) points ;;
  validate_dpf_key d key.

(** The end of EvaluateAtImpl, distributed_point_function.h:1022-1069: walk the
    remaining levels, hash and correct. *)
Definition evaluate_at_finish (T : cty) (key : dkey) (h : nat) (points tree_indices : list N)
    (st : list node) (start_level : nat) : res (list cval) :=
  stop_level <- at_or_ub (d_h2t d) h ;;
  cws <- subspan (k_cws key) start_level (stop_level - start_level) ;;
  st <- evaluate_seeds st tree_indices cws ;;
  let hashed := hash_expanded_seeds (blocks h) (map fst st) in
  corrections <- value_correction T key h ;;
  mapM (fun ix : nat * (N * node) =>
      elements <- convert_bytes T (block_bytes (blocks h) hashed (fst ix)) ;;
      let index := if Nat.ltb 1 (elements_per_block T)
                   then domain_to_block_index (fst (snd ix)) h else 0%nat in
      correct_element T (k_party key) (snd (snd (snd ix))) elements corrections index)
    (combine (seq 0 (length points)) (combine points st)).

(** tree_indices of EvaluateAtImpl, distributed_point_function.h:967-991. *)
Definition evaluate_at_indices (T : cty) (h : nat) (points : list N) : list N :=
  if Nat.ltb 1 (elements_per_block T)
  then map (fun x => domain_to_tree_index x h) points else points.

(** EvaluateAt<T>(key, hierarchy_level, evaluation_points):
    EvaluateAtImpl with ctx = nullptr, distributed_point_function.h:922-1079. *)
Definition evaluate_at (T : cty) (key : dkey) (h : Z) (points : list N) : res (list cval) :=
  _ <- evaluate_at_checks key h points ;;
  if Nat.eqb (length points) 0 then Ok []
  else
    evaluate_at_finish T key (Z.to_nat h) points
      (evaluate_at_indices T (Z.to_nat h) points)
      (map (fun _ => (key_seed key, key_bit key)) points) 0.

(** EvaluateAt<T>(hierarchy_level, evaluation_points, ctx): EvaluateAtImpl with
    key = ctx.key(), distributed_point_function.h:922-1079, with the context after the
    call. *)
Definition evaluate_at_ctx (T : cty) (h : Z) (points : list N) (c : ectx)
  : res (list cval) * ectx :=
  let key := ctx_key c in
  match evaluate_at_checks key h points with
  | Err e => (Err e, c)
  | Crash => (Crash, c)
  | UB => (UB, c)
  | Ok _ =>
      if Nat.eqb (length points) 0 then (Ok [], c)
      else
        let h := Z.to_nat h in
        let tree_indices := evaluate_at_indices T h points in
        match compute_partial_evaluations tree_indices h true c with
        | Err e => (Err e, c)
        | Crash => (Crash, c)
        | UB => (UB, c)
        | Ok (st, c1) =>
            match evaluate_at_finish T key h points tree_indices st (h2t h) with
            | Ok r => (Ok r, with_prev c1 (Z.of_nat h))
            | Err e => (Err e, c1)
            | Crash => (Crash, c1)
            | UB => (UB, c1)
            end
        end
  end.

(** The values computed for one hierarchy level of EvaluateAndApply,
    distributed_point_function.h:1113-1190: returns the values and the new seeds. *)
Definition apply_level (T : cty) (keys : list dkey) (points : list N) (rightshift : nat)
    (h start_level stop_level : nat) (st : list node) : res (list cval * list node) :=
  let nkeys := length keys in
  let domain_shift := (rightshift + ld_last - ld h)%nat in
  let tree_shift := (rightshift + ld_last - h2t h)%nat in
  let n := (stop_level - start_level)%nat in
  st <- (if Nat.ltb 0 n then
           cws <- mapM (fun i => mapM (fun key =>
                                         cw <- at_or_ub (k_cws key) (start_level + i) ;;
                                         Ok (corr_of cw)) keys) (seq 0 n) ;;
           evaluate_seeds_internal n (to_int32 (Z.of_nat n * Z.of_nat nkeys)) st points
             tree_shift (concat cws)
         else Ok st) ;;
  let hashed := hash_expanded_seeds (blocks h) (map fst st) in
  values <- mapM (fun ik : nat * (dkey * (N * node)) =>
      let '(i, (key, (x, n))) := ik in
      elements <- convert_bytes T (block_bytes (blocks h) hashed i) ;;
      corrections <- value_correction T key h ;;
      let index := if Nat.ltb 1 (elements_per_block T) && Nat.ltb domain_shift 128
                   then domain_to_block_index (N.shiftr x (N.of_nat domain_shift)) h
                   else 0%nat in
      correct_element T (k_party key) (snd n) elements corrections index)
    (combine (seq 0 nkeys) (combine keys (combine points st))) ;;
  Ok (values, st).

(** The loop over hierarchy levels h, ..., h + n - 1, distributed_point_function.h:1112-1197.
    [op] is a callback with its own state; returns the sequence of values passed to it
    and its final state. *)
Fixpoint apply_loop {S} (T : cty) (keys : list dkey) (points : list N) (rightshift : nat)
    (op : S -> list cval -> S * bool) (n h start_level : nat) (st : list node) (s : S)
  : res S :=
  match n with
  | O => Ok s
  | Datatypes.S n' =>
      '(values, st') <- apply_level T keys points rightshift h start_level (h2t h) st ;;
      let '(s', continue) := op s values in
      if continue
      then apply_loop T keys points rightshift op n' (Datatypes.S h) (h2t h) st' s'
      else Ok s'
  end.

(** EvaluateAndApply<T>, distributed_point_function.h:1081-1207.  The values are passed
    to [op], which threads a state of type S and returns whether to continue.  The
    callback's state after a failed call is not returned. *)
Definition evaluate_and_apply {S} (T : cty) (keys : list dkey) (points : list N)
    (op : S -> list cval -> S * bool) (rightshift : nat) (s : S) : res S :=
  _ <- check (Nat.eqb (length points) (length keys)) INVALID_ARGUMENT ;;
  _ <- iterM (validate_dpf_key d) keys ;;
  apply_loop T keys points rightshift op nlevels 0 0
    (map (fun k => (key_seed k, key_bit k)) keys) s.

End WithDpf.
End Aes.
