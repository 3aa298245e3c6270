(** Model of the XOR inner product (pir/internal/inner_product_hwy.cc) and of the dense
    database (pir/dense_dpf_pir_database.{h,cc}).

    Memory is modelled where the code depends on it: every string has an address, and
    reads and writes outside of a buffer, misaligned vector accesses and signed overflow
    are [UB].  Simplification: memory allocation never fails. *)
From Coq Require Import List NArith ZArith Bool.
From Verif Require Import Base.
Import ListNotations.
Open Scope N_scope.

(** An absl::string_view: the address and the contents it points to
    (dense_dpf_pir_database.h:114). *)
Record view := { v_addr : N; v_data : bytes }.

(** What the target and the allocator determine: whether the HWY_SCALAR fallback is
    compiled, log2(Lanes(ScalableTag<uint8_t>)), -HWY_MIN_POW2, alignof(AlignedBlockType)
    (kHwyAlignment), and the addresses of the result buffers of InnerProductHwy
    (hwy::AllocateAligned) and of InnerProductNoHwy (std::string)
    (inner_product_hwy.cc:100, 113-118, 164-177 and 272-280). *)
Record target := {
  t_scalar : bool;
  t_log_lanes : nat;
  t_depth : nat;
  t_align : N;
  t_haddr : nat -> N;
  t_saddr : nat -> N
}.

(** Reading and writing [n] bytes at [pos] of a buffer (inner_product_hwy.cc:66-75). *)
Definition load (buf : bytes) (pos n : nat) : res bytes :=
  if Nat.leb (pos + n) (length buf) then Ok (firstn n (skipn pos buf)) else UB.
(** Writing [data] at [pos], inner_product_hwy.cc:66-75. *)
Definition store (buf : bytes) (pos : nat) (data : bytes) : res bytes :=
  if Nat.leb (pos + length data) (length buf)
  then Ok (firstn pos buf ++ data ++ skipn (pos + length data) buf) else UB.

(** `for (; i < value.size(); ++i) result[i] ^= value[i];`,
    inner_product_hwy.cc:53-55 and 73-75. *)
Definition xor_bytes_from (value result : bytes) (i : nat) : res bytes :=
  foldM (fun r i => v <- at_or_ub value i ;; x <- at_or_ub r i ;; Ok (set_nth r i (N.lxor x v)))
        (seq i (length value - i)) result.

(** XorStringInPlaceNoHwy, inner_product_hwy.cc:47-76; [raddr] is the address of
    `result`.  The loop counter is an int: strings of 2^31 bytes or more are treated as
    undefined behaviour. *)
Definition xor_string_no_hwy (value : view) (raddr : N) (result : bytes) : res bytes :=
  let data := v_data value in
  if 2 ^ 31 <=? N.of_nat (length data) then UB
  else if negb (raddr mod 16 =? 0) || negb (v_addr value mod 16 =? 0)
  then xor_bytes_from data result 0
  else
    let n := Nat.div (length data) 16 in
    r <- foldM (fun r i =>
           s <- load data (i * 16) 16 ;;
           x <- load r (i * 16) 16 ;;
           store r (i * 16) (le_encode 16 (N.lxor (le_decode x) (le_decode s))))
         (seq 0 n) result ;;
    xor_bytes_from data r (n * 16).

(** hn::Load of a vector of [lanes] bytes at [pos] of a buffer at address [addr]:
    requires an aligned address (inner_product_hwy.cc:137-139 and 240-242). *)
Definition vload (lanes : nat) (addr : N) (buf : bytes) (pos : nat) : res bytes :=
  if (addr + N.of_nat pos) mod N.of_nat lanes =? 0 then load buf pos lanes else UB.
(** hn::Store (inner_product_hwy.cc:140 and 243). *)
Definition vstore (lanes : nat) (addr : N) (buf : bytes) (pos : nat) (vec : bytes) : res bytes :=
  if (addr + N.of_nat pos) mod N.of_nat lanes =? 0 then store buf pos vec else UB.
(** hn::Xor on byte vectors with the same number of lanes (inner_product_hwy.cc:139 and 242). *)
Fixpoint bxor (a b : bytes) : bytes :=
  match a, b with x :: a', y :: b' => N.lxor x y :: bxor a' b' | _, _ => [] end.

(** Load one vector of the value and XOR it into the result buffers listed in [ks],
    inner_product_hwy.cc:137-141 and 238-243. *)
Definition xor_vector (haddr : nat -> N) (lanes : nat) (value : view) (pos : nat) (ks : list nat)
    (bufs : list bytes) : res (list bytes) :=
  vec <- vload lanes (v_addr value) (v_data value) pos ;;
  foldM (fun bufs k =>
           buf <- at_or_ub bufs k ;;
           x <- vload lanes (haddr k) buf pos ;;
           buf' <- vstore lanes (haddr k) buf pos (bxor vec x) ;;
           Ok (set_nth bufs k buf')) ks bufs.

(** XorPartialString<kPow2>, inner_product_hwy.cc:128-157, where [lanes] is the number of
    lanes of ScalableTag<uint8_t, kPow2> and [depth] is kPow2 - HWY_MIN_POW2. *)
Fixpoint xor_partial (haddr : nat -> N) (depth lanes : nat) (value : view) (pos remaining : nat)
    (ks : list nat) (bufs : list bytes) : res (list bytes) :=
  match depth with
  | O => Ok bufs
  | S depth' =>
      let half := Nat.div lanes 2 in
      '(pos, bufs) <-
        (if N.land (N.of_nat remaining) (N.of_nat half) =? 0 then Ok (pos, bufs)
         else bufs' <- xor_vector haddr half value pos ks bufs ;; Ok ((pos + half)%nat, bufs')) ;;
      if Nat.ltb 1 half then xor_partial haddr depth' half value pos remaining ks bufs
      else Ok bufs
  end.

(** The loop over full vectors, inner_product_hwy.cc:237-245; [fuel] is at least the
    number of iterations. *)
Fixpoint xor_full (haddr : nat -> N) (fuel lanes : nat) (value : view) (pos : nat) (ks : list nat)
    (bufs : list bytes) : res (nat * list bytes) :=
  match fuel with
  | O => Ok (pos, bufs)
  | S fuel' =>
      if Nat.leb (pos + lanes) (length (v_data value))
      then bufs' <- xor_vector haddr lanes value pos ks bufs ;;
           xor_full haddr fuel' lanes value (pos + lanes) ks bufs'
      else Ok (pos, bufs)
  end.

(** `(selections[k][i] & (uint128{1} << j)) != 0` (inner_product_hwy.cc:214-215 and 287-288). *)
Definition selection_bit (selections : list (list N)) (k i j : nat) : res bool :=
  s <- at_or_ub selections k ;;
  b <- at_or_ub s i ;;
  Ok (negb (N.land b (N.shiftl 1 (N.of_nat j)) =? 0)).

(** Body of the loop over the values of one block, inner_product_hwy.cc:198-250: XOR
    `value` into the buffers of the selection vectors that have the bit (i, j) set. *)
Definition hwy_value (t : target) (selections : list (list N)) (i j : nat) (value : view)
    (bufs : list bytes) : res (list bytes) :=
  let aligned := v_addr value mod t_align t =? 0 in
  '(ks, bufs) <- foldM (fun st k =>
       let '(ks, bufs) := st in
       bit <- selection_bit selections k i j ;;
       if negb bit then Ok (ks, bufs)
       else if negb aligned
       then buf <- at_or_ub bufs k ;;
            buf' <- xor_string_no_hwy value (t_haddr t k) buf ;;
            Ok (ks, set_nth bufs k buf')
       else Ok (ks ++ [k], bufs))
     (seq 0 (length selections)) ([], bufs) ;;
  match ks with
  | [] => Ok bufs
  | _ =>
      let lanes := Nat.pow 2 (t_log_lanes t) in
      '(pos, bufs) <- xor_full (t_haddr t) (length (v_data value)) lanes value 0 ks bufs ;;
      if Nat.ltb pos (length (v_data value))
      then xor_partial (t_haddr t) (t_depth t) lanes value pos (length (v_data value) - pos) ks bufs
      else Ok bufs
  end.

(** The loop over the bits of block [i], inner_product_hwy.cc:191-251 and 281-295.
    [base] is the int `base`; `index >= values.size()` compares it as an unsigned
    64-bit number. *)
Fixpoint bit_loop (body : nat -> view -> list bytes -> res (list bytes)) (base : Z)
    (values : list view) (js : list nat) (bufs : list bytes) : res (list bytes) :=
  match js with
  | [] => Ok bufs
  | j :: js' =>
      let index := (base + Z.of_nat j)%Z in
      if (Z.of_nat (length values) <=? index mod 18446744073709551616)%Z then Ok bufs
      else value <- atz_or_ub values index ;;
           bufs' <- body j value bufs ;;
           bit_loop body base values js' bufs'
  end.

(** InnerProductNoHwy, inner_product_hwy.cc:272-298.  `int base = i * kBitsPerBlock`
    overflows from 2^24 blocks on. *)
Definition inner_product_no_hwy (t : target) (values : list view) (selections : list (list N))
    (max_value_size : nat) : res (list bytes) :=
  s0 <- at_or_ub selections 0 ;;
  foldM (fun bufs i =>
           let base := (Z.of_nat i * 128)%Z in
           if (2147483648 <=? base)%Z then UB
           else bit_loop (fun j value bufs =>
                  foldM (fun bufs k =>
                           bit <- selection_bit selections k i j ;;
                           if negb bit then Ok bufs
                           else buf <- at_or_ub bufs k ;;
                                buf' <- xor_string_no_hwy value (t_saddr t k) buf ;;
                                Ok (set_nth bufs k buf'))
                        (seq 0 (length selections)) bufs)
                  base values (seq 0 128) bufs)
        (seq 0 (length s0)) (repeat (repeat 0 max_value_size) (length selections)).

(** InnerProductHwy, inner_product_hwy.cc:102-107 (HWY_SCALAR) and 159-260.
    `const int base = i * kBitsPerBlock` truncates a 64-bit product. *)
Definition inner_product_hwy (t : target) (values : list view) (selections : list (list N))
    (max_value_size : nat) : res (list bytes) :=
  let lanes := 2 ^ N.of_nat (t_log_lanes t) in
  if t_scalar t || (lanes <? 16) || negb (lanes mod 16 =? 0)
  then inner_product_no_hwy t values selections max_value_size
  else
    s0 <- at_or_ub selections 0 ;;
    foldM (fun bufs i =>
             bit_loop (fun j value bufs => hwy_value t selections i j value bufs)
               (to_int32 (Z.of_nat i * 128)) values (seq 0 128) bufs)
          (seq 0 (length s0)) (repeat (repeat 0 max_value_size) (length selections)).

(** InnerProduct, inner_product_hwy.cc:302-342.  `first_selection_vector_size` is an int
    that is compared to a size_t.  The loop counter over the values is an int: 2^31
    values or more are treated as undefined behaviour (after the size checks). *)
Definition inner_product (t : target) (values : list view) (selections : list (list N))
    (max_value_size : Z) : res (list bytes) :=
  match selections with
  | [] => Ok []
  | s0 :: _ =>
      let first := to_int32 (Z.of_nat (length s0)) in
      _ <- iterM (fun s : list N =>
             _ <- check (negb (Z.of_nat (length s) * 128 <? Z.of_nat (length values))%Z) INVALID_ARGUMENT ;;
             _ <- check (Z.of_nat (length s) =? first mod 18446744073709551616)%Z INVALID_ARGUMENT ;;
             check (0 <? max_value_size)%Z INVALID_ARGUMENT) selections ;;
      _ <- iterM (fun v => check (Z.of_nat (length (v_data v)) <=? max_value_size)%Z INVALID_ARGUMENT) values ;;
      if (2147483648 <=? Z.of_nat (length values))%Z then UB
      else inner_product_hwy t values selections (Z.to_nat max_value_size)
  end.

(** * Dense database *)

(** AlignBytes, dense_dpf_pir_database.cc:40-52 (size_t arithmetic). *)
Definition align_bytes (n : N) : N := N.land ((n + 15) mod P64) (P64 - 16).
(** NumBytesToNumBlocks, dense_dpf_pir_database.cc:61-64. *)
Definition num_blocks (num_bytes : Z) : N :=
  ((Z.to_N (num_bytes mod 18446744073709551616) + 15) mod P64) / 16.
(** Conversion to int64_t (dense_dpf_pir_database.cc:61-64). *)
Definition to_int64 (x : Z) : Z :=
  ((x + 9223372036854775808) mod 18446744073709551616 - 9223372036854775808)%Z.

(** DenseDpfPirDatabase::Builder, dense_dpf_pir_database.h:51-71. *)
Record builder := { b_values : list bytes; b_total : Z; b_built : bool }.
(** Builder(), dense_dpf_pir_database.cc:68-69. *)
Definition new_builder : builder := {| b_values := []; b_total := 0; b_built := false |}.
(** Clone, dense_dpf_pir_database.cc:71-78. *)
Definition clone (b : builder) : builder :=
  {| b_values := b_values b; b_total := b_total b; b_built := b_built b |}.
(** Insert, dense_dpf_pir_database.cc:80-85. *)
Definition insert (b : builder) (value : bytes) : builder :=
  {| b_values := b_values b ++ [value];
     b_total := to_int64 (b_total b + Z.of_N (align_bytes (N.of_nat (length value))));
     b_built := b_built b |}.
(** Clear, dense_dpf_pir_database.cc:87-92. *)
Definition clear (b : builder) : builder :=
  {| b_values := []; b_total := 0; b_built := false |}.

(** DenseDpfPirDatabase, dense_dpf_pir_database.h:89-117.  The buffer is a list of bytes
    (16 per block); views are absolute addresses with sizes, [None] for the null view.
    [db_cap] and [db_head] are the capacity (in blocks) and the address of the buffer. *)
Record db := {
  db_max : N;
  db_buffer : bytes;
  db_cap : N;
  db_head : N;
  db_offsets : list (N * N);
  db_views : list (option N * nat)
}.

(** What the allocator determines: the capacity after reserve(n), the address of the
    first buffer and the address after a reallocation
    (dense_dpf_pir_database.cc:112 and 133-147). *)
Record alloc := { a_cap : N -> N; a_head : N; a_realloc : N -> N }.

(** The constructor, dense_dpf_pir_database.cc:108-117.  std::vector::reserve throws
    std::length_error above max_size() = 2^59 - 1 blocks. *)
Definition new_db (a : alloc) (total : Z) : res db :=
  let n := num_blocks total in
  if 2 ^ 59 <=? n then Crash
  else Ok {| db_max := 0; db_buffer := []; db_cap := a_cap a n; db_head := a_head a;
             db_offsets := []; db_views := [] |}.

(** Append, dense_dpf_pir_database.cc:119-160. *)
Definition append (a : alloc) (d : db) (value : bytes) : res db :=
  let offset := N.of_nat (length (db_buffer d)) / 16 in
  let size := N.of_nat (length value) in
  if size =? 0
  then Ok {| db_max := db_max d; db_buffer := db_buffer d; db_cap := db_cap d; db_head := db_head d;
             db_offsets := db_offsets d ++ [(offset, 0)];
             db_views := db_views d ++ [(None, 0%nat)] |}
  else
    let additional := align_bytes size / 16 in
    _ <- check (negb (db_cap d <? offset + additional)) INTERNAL ;;
    let buffer := db_buffer d ++ repeat 0 (N.to_nat (16 * additional)) in
    let head := if offset + additional <=? db_cap d then db_head d else a_realloc a (db_head d) in
    _ <- check (db_head d =? head) INTERNAL ;;
    buffer <- store buffer (N.to_nat (16 * offset)) value ;;
    Ok {| db_max := if db_max d <? size then size else db_max d;
          db_buffer := buffer; db_cap := db_cap d; db_head := head;
          db_offsets := db_offsets d ++ [(offset, size)];
          db_views := db_views d ++ [(Some (head + 16 * offset), length value)] |}.

(** Build, dense_dpf_pir_database.cc:94-106.  It marks the builder as built and moves the
    values out of it. *)
Definition build (a : alloc) (b : builder) : res db * builder :=
  if b_built b then (Err FAILED_PRECONDITION, b)
  else
    let r := d <- new_db a (b_total b) ;; foldM (append a) (b_values b) d in
    (r, {| b_values := []; b_total := b_total b; b_built := true |}).

(** Reading through a view (dense_dpf_pir_database.h:87 and 114). *)
Definition deref (d : db) (v : option N * nat) : res view :=
  match v with
  | (None, n) => if Nat.eqb n 0 then Ok {| v_addr := 0; v_data := [] |} else UB
  | (Some p, n) =>
      if p <? db_head d then UB
      else b <- load (db_buffer d) (N.to_nat (p - db_head d)) n ;; Ok {| v_addr := p; v_data := b |}
  end.
(** content(), dense_dpf_pir_database.h:87. *)
Definition content (d : db) : res (list view) := mapM (deref d) (db_views d).
(** size(), dense_dpf_pir_database.h:75. *)
Definition db_size (d : db) : nat := length (db_views d).

(** InnerProductWith, dense_dpf_pir_database.cc:164-168 (max_value_size_ is passed as an
    int64_t). *)
Definition inner_product_with (t : target) (d : db) (selections : list (list N)) : res (list bytes) :=
  values <- content d ;;
  inner_product t values selections (to_int64 (Z.of_N (db_max d))).
