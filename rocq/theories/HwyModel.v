(** Model of the vectorised tree walk, dpf/internal/evaluate_prg_hwy.cc and
    dpf/internal/aes_128_fixed_key_hash_hwy.h, for every vector width.

    A vector of [16 * bpv] bytes is the list of its 64-bit lanes, lowest first; a mask
    for 64-bit lanes is a list of booleans.  Arrays are lists; byte offsets into arrays
    of absl::uint128 are kept as in the code.  Reading or writing out of range, and an
    aligned load or store at an address that is not a multiple of the vector size, are
    undefined behaviour.
    Simplifications: little-endian hosts only (static_assert, evaluate_prg_hwy.cc:128);
    memory allocation and AES_set_encrypt_key succeed; a byte mask whose size is a
    multiple of 8 is given for 64-bit lanes. *)
From Coq Require Import List NArith ZArith Lia Bool.
From Verif Require Import Base ValueTypesModel DpfModel.
Import ListNotations.
Open Scope N_scope.

(** * Highway operations (a dependency; hwy/highway.h) *)
(** A vector: its 64-bit lanes, evaluate_prg_hwy.cc:171 and 200. *)
Definition vec := list N.
(** Masks of 64-bit lanes, evaluate_prg_hwy.cc:204-205. *)
Definition mask := list bool.

(** The 64-bit lanes of an array of 128-bit blocks, and back (evaluate_prg_hwy.cc:212-214). *)
Definition lanes_of (blocks : list N) : vec := flat_map (fun x => [lo64 x; hi64 x]) blocks.
(** The blocks of a vector of 64-bit lanes, evaluate_prg_hwy.cc:212-214. *)
Fixpoint blocks_of (v : vec) : list N :=
  match v with
  | lo :: hi :: v' => mk128 hi lo :: blocks_of v'
  | _ => []
  end.
(** Shuffle01: swap the two 64-bit halves of every block (evaluate_prg_hwy.cc:138). *)
Fixpoint shuffle01 (v : vec) : vec :=
  match v with
  | lo :: hi :: v' => hi :: lo :: shuffle01 v'
  | _ => []
  end.
(** hn::Xor, evaluate_prg_hwy.cc:252-254. *)
Definition vxor : vec -> vec -> vec := zip2 N.lxor.
(** hn::And, evaluate_prg_hwy.cc:134. *)
Definition vand : vec -> vec -> vec := zip2 N.land.
(** hn::Or, evaluate_prg_hwy.cc:138. *)
Definition vor : vec -> vec -> vec := zip2 N.lor.
(** IfThenElse and IfThenElseZero (aes_128_fixed_key_hash_hwy.h:68-72). *)
Definition if_then_else (m : mask) (a b : vec) : vec :=
  zip3 (fun (c : bool) x y => if c then x else y) m a b.
(** hn::IfThenElseZero, evaluate_prg_hwy.cc:253. *)
Definition if_then_else_zero (m : mask) (a : vec) : vec :=
  zip2 (fun (c : bool) x => if c then x else 0) m a.
(** hn::And on masks, evaluate_prg_hwy.cc:367. *)
Definition mand : mask -> mask -> mask := zip2 andb.
(** hn::Or on masks, evaluate_prg_hwy.cc:111. *)
Definition mor : mask -> mask -> mask := zip2 orb.
(** hn::Xor on masks, evaluate_prg_hwy.cc:366. *)
Definition mxor : mask -> mask -> mask := zip2 xorb.
(** hn::Not, evaluate_prg_hwy.cc:112 and 205. *)
Definition mnot : mask -> mask := map negb.

(** Contiguous reads and writes of an array (evaluate_prg_hwy.cc:81 and 220). *)
Definition read_array {A} (mem : list A) (off len : nat) : res (list A) :=
  if Nat.leb (off + len) (length mem) then Ok (firstn len (skipn off mem)) else UB.
(** Writing an array, evaluate_prg_hwy.cc:105 and 379. *)
Definition write_array {A} (mem : list A) (off : nat) (vals : list A) : res (list A) :=
  if Nat.leb (off + length vals) (length mem)
  then Ok (firstn off mem ++ vals ++ skipn (off + length vals) mem) else UB.

Section Width.
(** Number of 128-bit blocks in a vector. *)
Variable bpv : nat.
(** bytes_per_vec, evaluate_prg_hwy.cc:207. *)
Definition bytes_per_vec : nat := (16 * bpv)%nat.
(** Lanes(d64) (evaluate_prg_hwy.cc:76 and 96). *)
Definition lanes64 : nat := (2 * bpv)%nat.

(** LoadDup128 (evaluate_prg_hwy.cc:130, 202 and 250). *)
Definition load_dup128 (x : N) : vec := lanes_of (repeat x bpv).
(** LoadU at a byte offset of an array of blocks (evaluate_prg_hwy.cc:280-287). *)
Definition load_u (mem : list N) (byte_off : nat) : res vec :=
  if Nat.eqb (byte_off mod 16) 0
  then b <- read_array mem (byte_off / 16) bpv ;; Ok (lanes_of b) else UB.
(** Load: the base is aligned to the vector size, so the offset has to be as well
    (evaluate_prg_hwy.cc:220-227). *)
Definition load (mem : list N) (byte_off : nat) : res vec :=
  if Nat.eqb (byte_off mod bytes_per_vec) 0 then load_u mem byte_off else UB.
(** Store (evaluate_prg_hwy.cc:379-382). *)
Definition store (v : vec) (mem : list N) (byte_off : nat) : res (list N) :=
  if Nat.eqb (byte_off mod bytes_per_vec) 0
  then write_array mem (byte_off / 16) (blocks_of v) else UB.
(** MaskedLoad with the mask FirstN(d8, n): lanes at n or above are zero
    (evaluate_prg_hwy.cc:476-478). *)
Definition masked_load (n : nat) (mem : list N) (byte_off : nat) : res vec :=
  v <- load mem byte_off ;;
  Ok (firstn (n / 8) v ++ repeat 0 (length v - n / 8)).

(** * evaluate_prg_hwy.cc *)

(** MaskFromBools for 64-bit lanes, evaluate_prg_hwy.cc:67-86.  [off] is the offset of
    [input] in the array of bools; lanes after the break stay unset. *)
Definition mask_from_bools (input : list bool) (off max_blocks : nat) : res mask :=
  mapM (fun i =>
          let block_idx := Nat.div i 2 in
          if Nat.ltb 0 max_blocks && Nat.leb max_blocks block_idx then Ok false
          else at_or_ub input (off + block_idx))
       (seq 0 lanes64).
(** BoolsFromMask, evaluate_prg_hwy.cc:88-107; the bits of lanes that do not exist are
    zero in mask_bits. *)
Definition bools_from_mask (m : mask) (output : list bool) (off max_blocks : nat)
  : res (list bool) :=
  let num_outputs := if Nat.ltb 0 max_blocks then max_blocks else Nat.div lanes64 2 in
  write_array output off (map (fun i => nth (i * 2) m false) (seq 0 num_outputs)).
(** IfThenElseMask, evaluate_prg_hwy.cc:109-113. *)
Definition if_then_else_mask (c t f : mask) : mask := mor (mand c t) (mand (mnot c) f).
(** IsBitSet, evaluate_prg_hwy.cc:115-142. *)
Definition is_bit_set (input : vec) (index : nat) : mask :=
  let m := if Nat.ltb index 128 then N.shiftl 1 (N.of_nat index) else 0 in
  let x := vand input (load_dup128 m) in
  map (fun y => negb (y =? 0)) (vor x (shuffle01 x)).

Section Aes.
(** One AES round and the last AES round on a block, and the round keys of a key. *)
Variables (aes_round aes_last : N -> N -> N) (round_key : N -> nat -> N).

(** AES-128 from its rounds (what EVP_Cipher in ECB mode computes for every
    block in aes_128_fixed_key_hash.cc:85-88). *)
Definition rkey (key : N) (r : nat) : N := w128 (round_key key r).
(** AES-128 of one block, aes_128_fixed_key_hash_hwy.h:122-155. *)
Definition aes_encrypt (key x : N) : N :=
  w128 (aes_last
          (fold_left (fun s r => w128 (aes_round s (rkey key r))) (seq 1 9)
                     (N.lxor x (rkey key 0)))
          (rkey key 10)).

(** AESRound and AESLastRound work on each block of the vector
    (aes_128_fixed_key_hash_hwy.h:122-155). *)
Definition on_blocks (f : N -> N -> N) (v k : vec) : vec :=
  lanes_of (zip2 f (blocks_of v) (blocks_of k)).

(** DPF_AES_LOAD_ROUND_KEY and DPF_AES_SELECT_KEY,
    aes_128_fixed_key_hash_hwy.h:61-72. *)
Definition selected_key (m : mask) (key0 key1 : N) (r : nat) : vec :=
  if_then_else m (load_dup128 (rkey key1 r)) (load_dup128 (rkey key0 r)).
(** kSigmaMask, aes_128_fixed_key_hash_hwy.h:75-76. *)
Definition kSigmaMask : N := mk128 0xffffffffffffffff 0.
(** DPF_AES_COMPUTE_SIGMA, aes_128_fixed_key_hash_hwy.h:77-86. *)
Definition sigma_vec (v : vec) : vec :=
  vxor (shuffle01 v) (vand (load_dup128 kSigmaMask) v).
(** HashOneWithKeyMask, aes_128_fixed_key_hash_hwy.h:122-155. *)
Definition hash_one_with_key_mask (v : vec) (m : mask) (key0 key1 : N) : vec :=
  let s := sigma_vec v in
  let out := vxor s (selected_key m key0 key1 0) in
  let out := fold_left (fun o r => on_blocks aes_round o (selected_key m key0 key1 r))
                       (seq 1 9) out in
  let out := on_blocks aes_last out (selected_key m key0 key1 10) in
  vxor out s.

(** A vector of seeds with the mask of their control bits (evaluate_prg_hwy.cc:220 and 228). *)
Definition vstate := (vec * mask)%type.

Section Call.
Variables (num_seeds num_levels : nat) (cwpl : nat) (rs : nat) (cws : list corr).
Let correction_seeds : list N := map fst cws.
Let controls_left : list bool := map (fun c => fst (snd c)) cws.
Let controls_right : list bool := map (fun c => snd (snd c)) cws.

(** bit_index of level j, evaluate_prg_hwy.cc:237. *)
Definition bit_index (j : nat) : nat := (num_levels - j - 1 + rs)%nat.

(** One level for one vector once its correction seed and correction control masks are
    loaded, evaluate_prg_hwy.cc:248-376 for one of the four vectors, 407-453 for a single
    vector and 489-530 for the last one. *)
Definition vector_level (path_mask : mask) (correction_seed : vec)
    (control_left control_right : mask) (hashed : vec) (control_mask : mask) : vstate :=
  let v := vxor hashed (if_then_else_zero control_mask correction_seed) in
  let next_control_mask := is_bit_set v 0 in
  let v := vand v (load_dup128 (P128 - 2)) in
  let ccm := if_then_else_mask path_mask control_right control_left in
  (v, mxor next_control_mask (mand control_mask ccm)).

(** The masks of one control bit correction shared by all seeds, evaluate_prg_hwy.cc:319-322. *)
Definition all_mask (b : bool) : mask := repeat b lanes64.
(** The control bit correction of level j, shared by all seeds, evaluate_prg_hwy.cc:319-322. *)
Definition shared_controls (controls : list bool) (j : nat) : res mask :=
  b <- at_or_ub controls j ;; Ok (all_mask b).

(** Corrections for a full vector at byte offset [i + k * bytes_per_vec],
    evaluate_prg_hwy.cc:248-301 and 313-363 (four vectors), 407-422 and 431-451
    (single vector). *)
Definition full_correction_seed (j i : nat) : res vec :=
  if Nat.eqb cwpl 1 then
    c <- at_or_ub correction_seeds j ;; Ok (load_dup128 c)
  else if Nat.eqb (cwpl mod bpv) 0 || Nat.eqb j 0
  then load correction_seeds (16 * (j * cwpl) + i)
  else load_u correction_seeds (16 * (j * cwpl) + i).
(** One control bit correction per seed, evaluate_prg_hwy.cc:336-344. *)
Definition full_controls (controls : list bool) (j start_block : nat) : res mask :=
  if Nat.eqb cwpl 1 then shared_controls controls j
  else mask_from_bools controls (j * cwpl + start_block) 0.

(** One level of one full vector whose first byte is [i] (evaluate_prg_hwy.cc:399-453). *)
Definition full_level (i : nat) (path : vec) (j : nat) (hashed : vec) (cm : mask)
  : res vstate :=
  let path_mask := is_bit_set path (bit_index j) in
  cs <- full_correction_seed j i ;;
  l <- full_controls controls_left j (Nat.div i 16) ;;
  r <- full_controls controls_right j (Nat.div i 16) ;;
  Ok (vector_level path_mask cs l r hashed cm).
(** The PRG of one level, evaluate_prg_hwy.cc:400-405. *)
Definition hash_level (path : vec) (j : nat) (v : vec) : vec :=
  hash_one_with_key_mask v (is_bit_set path (bit_index j)) kPrgKeyLeft kPrgKeyRight.

(** Arrays that are written: seeds_out and control_bits_out (evaluate_prg_hwy.cc:156-157). *)
Definition outs := (list N * list bool)%type.
(** seeds_in and control_bits_in; None when the call is in place
    (distributed_point_function.cc:279-288, distributed_point_function.h:1153-1160). *)
Variable ins : option outs.
(** The input arrays, evaluate_prg_hwy.cc:152. *)
Definition rd (o : outs) : outs := match ins with Some a => a | None => o end.
Variable paths : list N.

(** Loads of one full vector at byte [i], evaluate_prg_hwy.cc:218-234 and 395-398. *)
Definition full_load (o : outs) (i : nat) : res (vec * vstate) :=
  v <- load (fst (rd o)) i ;;
  p <- load paths i ;;
  m <- mask_from_bools (snd (rd o)) (Nat.div i 16) 0 ;;
  Ok (p, (v, m)).
(** Stores of one full vector, evaluate_prg_hwy.cc:378-389 and 455-456. *)
Definition full_store (st : vstate) (o : outs) (i : nat) : res outs :=
  s <- store (fst st) (fst o) i ;;
  b <- bools_from_mask (snd st) (snd o) (Nat.div i 16) 0 ;;
  Ok (s, b).

(** One iteration of the loop over four vectors, evaluate_prg_hwy.cc:217-390.
    HashFourWithKeyMask (aes_128_fixed_key_hash_hwy.h:181-228) does to each of its
    vectors what HashOneWithKeyMask does. *)
Definition four_iteration (o : outs) (i : nat) : res outs :=
  let i0 := i in
  let i1 := (i + 1 * bytes_per_vec)%nat in
  let i2 := (i + 2 * bytes_per_vec)%nat in
  let i3 := (i + 3 * bytes_per_vec)%nat in
  '(p0, s0) <- full_load o i0 ;;
  '(p1, s1) <- full_load o i1 ;;
  '(p2, s2) <- full_load o i2 ;;
  '(p3, s3) <- full_load o i3 ;;
  '(s0, s1, s2, s3) <-
    foldM (fun '(s0, s1, s2, s3) j =>
      let h0 := hash_level p0 j (fst s0) in
      let h1 := hash_level p1 j (fst s1) in
      let h2 := hash_level p2 j (fst s2) in
      let h3 := hash_level p3 j (fst s3) in
      t0 <- full_level i0 p0 j h0 (snd s0) ;;
      t1 <- full_level i1 p1 j h1 (snd s1) ;;
      t2 <- full_level i2 p2 j h2 (snd s2) ;;
      t3 <- full_level i3 p3 j h3 (snd s3) ;;
      Ok (t0, t1, t2, t3)) (seq 0 num_levels) (s0, s1, s2, s3) ;;
  o <- full_store s0 o i0 ;;
  o <- full_store s1 o i1 ;;
  o <- full_store s2 o i2 ;;
  full_store s3 o i3.

(** One iteration of the loop over single full vectors, evaluate_prg_hwy.cc:394-457. *)
Definition one_iteration (o : outs) (i : nat) : res outs :=
  '(p, s) <- full_load o i ;;
  s <- foldM (fun (s : vstate) j => full_level i p j (hash_level p j (fst s)) (snd s))
             (seq 0 num_levels) s ;;
  full_store s o i.

(** for (; i + step <= num_bytes; i += step); the fuel [num_bytes] suffices
    (evaluate_prg_hwy.cc:217 and 394). *)
Fixpoint vector_loop (fuel : nat) (step : nat) (body : outs -> nat -> res outs)
    (o : outs) (i : nat) : res (outs * nat) :=
  match fuel with
  | O => Ok (o, i)
  | S fuel' =>
      if Nat.leb (i + step) (16 * num_seeds)
      then o' <- body o i ;; vector_loop fuel' step body o' (i + step)
      else Ok (o, i)
  end.

(** Elements less than a full vector, evaluate_prg_hwy.cc:460-536.  [buffer] is the
    newly allocated buffer of 2 * blocks_per_vec blocks with arbitrary contents. *)
Definition rest (buffer : list N) (o : outs) (i : nat) : res outs :=
  let remaining_blocks := (num_seeds - Nat.div i 16)%nat in
  if Nat.ltb 0 remaining_blocks then
    let start_block := Nat.div i 16 in
    let remaining_bytes := (16 * num_seeds - i)%nat in
    s <- read_array (fst (rd o)) start_block remaining_blocks ;;
    buffer <- write_array buffer 0 s ;;
    p <- read_array paths start_block remaining_blocks ;;
    buffer <- write_array buffer bpv p ;;
    v <- masked_load remaining_bytes buffer 0 ;;
    path <- masked_load remaining_bytes buffer bytes_per_vec ;;
    cm <- mask_from_bools (snd (rd o)) start_block remaining_blocks ;;
    '(buffer, v, cm) <-
      foldM (fun '(buffer, v, cm) j =>
        let path_mask := is_bit_set path (bit_index j) in
        let h := hash_one_with_key_mask v path_mask kPrgKeyLeft kPrgKeyRight in
        if Nat.eqb cwpl 1 then
          c <- at_or_ub correction_seeds j ;;
          l <- shared_controls controls_left j ;;
          r <- shared_controls controls_right j ;;
          let '(v, cm) := vector_level path_mask (load_dup128 c) l r h cm in
          Ok (buffer, v, cm)
        else
          c <- read_array correction_seeds (j * cwpl + start_block) remaining_blocks ;;
          buffer <- write_array buffer 0 c ;;
          cs <- masked_load remaining_bytes buffer 0 ;;
          l <- mask_from_bools controls_left (j * cwpl + start_block) remaining_blocks ;;
          r <- mask_from_bools controls_right (j * cwpl + start_block) remaining_blocks ;;
          let '(v, cm) := vector_level path_mask cs l r h cm in
          Ok (buffer, v, cm))
        (seq 0 num_levels) (buffer, v, cm) ;;
    buffer <- store v buffer 0 ;;
    b <- read_array buffer 0 remaining_blocks ;;
    s <- write_array (fst o) start_block b ;;
    c <- bools_from_mask cm (snd o) start_block remaining_blocks ;;
    Ok (s, c)
  else Ok o.

(** The vectorised part of EvaluateSeedsHwy, evaluate_prg_hwy.cc:199-538. *)
Definition hwy_vectors (buffer : list N) (o : outs) : res outs :=
  '(o, i) <- vector_loop (16 * num_seeds) (4 * bytes_per_vec) four_iteration o 0 ;;
  '(o, i) <- vector_loop (16 * num_seeds) bytes_per_vec one_iteration o i ;;
  rest buffer o i.
End Call.
End Aes.
End Width.

(** * EvaluateSeeds *)
Section EvaluateSeeds.
Variables (aes_round aes_last : N -> N -> N) (round_key : N -> nat -> N).
Let aes := aes_encrypt aes_round aes_last round_key.

(** EvaluateSeedsHwy, evaluate_prg_hwy.cc:150-539, for vectors of [lanes8] bytes.
    [ins] are seeds_in and control_bits_in (None: the call is in place), [o] the
    contents of seeds_out and control_bits_out.  The scalar walk it falls back to is the
    one of DpfModel.v. *)
Definition evaluate_seeds_hwy (lanes8 : nat) (is_aligned : bool) (buffer : list N)
    (num_levels : nat) (ncw : Z) (ins : option outs) (paths : list N) (rs : nat)
    (cws : list corr) (o : outs) : res outs :=
  let '(seeds, bits) := rd ins o in
  let num_seeds := length seeds in
  if Nat.eqb num_seeds 0 || Nat.eqb num_levels 0 then Ok o
  else if negb is_aligned || Nat.ltb lanes8 16 || negb (Nat.eqb (lanes8 mod 16) 0) then
    r <- walk_batches aes num_seeds num_levels ncw rs cws 0
           (chunks batch_size (combine paths (combine seeds bits))) ;;
    Ok (map fst r, map snd r)
  else
    let cwpl := Z.to_nat (Z.quot ncw (Z.of_nat num_levels)) in
    hwy_vectors (lanes8 / 16) aes_round aes_last round_key num_seeds num_levels cwpl rs
      cws ins paths buffer o.

(** dpf_internal::EvaluateSeeds dispatching to it, evaluate_prg_hwy.cc:638-658. *)
Definition evaluate_seeds_dispatch (lanes8 : nat) (is_aligned : bool) (buffer : list N)
    (num_levels : nat) (ncw : Z) (ins : option outs) (paths : list N) (rs : nat)
    (cws : list corr) (o : outs) : res outs :=
  _ <- check (negb (negb (ncw =? Z.of_nat num_levels)%Z
                    && negb (ncw =? Z.of_nat num_levels
                                    * Z.of_nat (length (fst (rd ins o))))%Z))
             INVALID_ARGUMENT ;;
  evaluate_seeds_hwy lanes8 is_aligned buffer num_levels ncw ins paths rs cws o.
End EvaluateSeeds.
