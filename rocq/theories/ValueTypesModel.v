(** Model of the value types of the DPF library and of their proto encodings:
    dpf/distributed_point_function.proto, dpf/int_mod_n.{h,cc}, dpf/tuple.h,
    dpf/xor_wrapper.h, dpf/internal/value_type_helpers.{h,cc} and the value type part
    of dpf/internal/proto_validator.cc. *)
From Coq Require Import List NArith ZArith QArith Bool.
From Verif Require Import Base.
Import ListNotations.
Open Scope N_scope.

(** * Protos *)

(** Value.Integer, distributed_point_function.proto:65-72 (oneof with an unset case). *)
Inductive vinteger :=
| VIUnset
| VI64 (v : N)
| VI128 (hi lo : N).

(** ValueType, distributed_point_function.proto:25-60.  An unset [base_integer] or
    [modulus] sub-message reads as its default, which is [0] resp. [VIUnset]. *)
Inductive ptype :=
| PTUnset
| PTInteger (bitsize : Z)
| PTTuple (els : list ptype)
| PTIntModN (bitsize : Z) (modulus : vinteger)
| PTXor (bitsize : Z).

(** Value, distributed_point_function.proto:64-85. *)
Inductive pvalue :=
| PVUnset
| PVInteger (i : vinteger)
| PVTuple (els : list pvalue)
| PVIntModN (i : vinteger)
| PVXor (i : vinteger).

(** A C++ double used as security parameter: NaN, an infinity, or a finite number.
    Simplification: finite doubles are rationals and the additions/subtractions of
    proto_validator.cc on them are exact (distributed_point_function.proto:104). *)
Inductive dbl :=
| DNaN
| DInf (positive : bool)
| DFin (q : Q).

(** The two computations that use std::log2 on the security parameter are left
    arbitrary: [f_add_log2 s n] is [s + std::log2(n)] (value_type_helpers.cc:107-108)
    and [f_gt_level s n m] is [s > GetSecurityLevel(n, m)]
    (int_mod_n.cc:29-34,59-60). *)
Record fops := {
  f_add_log2 : dbl -> N -> dbl;
  f_gt_level : dbl -> N -> N -> bool
}.

(** * C++ types and values *)

(** Supported C++ types: unsigned integers of [w] bits, IntModN<uint_w, m>,
    Tuple<...>, XorWrapper<uint_w> (value_type_helpers.h:183, 259, 352 and 468). *)
Inductive cty :=
| TInt (w : N)
| TMod (w : N) (m : N)
| TTup (ts : list cty)
| TXor (w : N).

(** Values of those types; integers, IntModN and XorWrapper are represented by their
    underlying unsigned integer (int_mod_n.h:40-250, tuple.h:29-48 and xor_wrapper.h:26-80). *)
Inductive cval :=
| VNum (n : N)
| VTup (vs : list cval).

(** Bit widths of C++ unsigned integer types (is_unsigned_integer_v,
    dpf/internal/value_type_helpers.h and is_unsigned_integer in
    dpf/int_mod_n.h:89-99). *)
Definition cwidth_ok (w : N) : bool :=
  existsb (N.eqb w) [8; 16; 32; 64; 128].

(** Types that can be instantiated: int_mod_n.h:100-101 requires
    0 < kModulus <= max(BaseInteger) (kModulus = 0 does not compile: division by zero
    in a constant expression); Tuple<> has no TotalBitSize
    (value_type_helpers.h:337-349). *)
Fixpoint cty_ok (t : cty) : bool :=
  match t with
  | TInt w => cwidth_ok w
  | TXor w => cwidth_ok w
  | TMod w m => cwidth_ok w && (0 <? m) && (m <? 2 ^ w)
  | TTup ts => negb (Nat.eqb (length ts) 0) && forallb cty_ok ts
  end.

Section Zip.
  Context {A B C D : Type}.
  Variable f : A -> B -> C -> D.
  (** Element-wise operations on tuples, tuple.h:105-117. *)
  Fixpoint zip3 (la : list A) (lb : list B) (lc : list C) : list D :=
    match la, lb, lc with
    | a :: la', b :: lb', c :: lc' => f a b c :: zip3 la' lb' lc'
    | _, _, _ => []
    end.
  Variable g : A -> B -> D.
  (** Element-wise operations on tuples, tuple.h:105-117. *)
  Fixpoint zip2 (la : list A) (lb : list B) : list D :=
    match la, lb with
    | a :: la', b :: lb' => g a b :: zip2 la' lb'
    | _, _ => []
    end.
  Variable h : A -> B -> bool.
  (** Element-wise comparison, tuple.h:95-98. *)
  Fixpoint all2 (la : list A) (lb : list B) : bool :=
    match la, lb with
    | [], [] => true
    | a :: la', b :: lb' => h a b && all2 la' lb'
    | _, _ => false
    end.
End Zip.

(** T{}: zero-initialisation (int_mod_n.h:106, xor_wrapper.h:30, std::tuple). *)
Fixpoint vzero (t : cty) : cval :=
  match t with
  | TInt _ | TXor _ | TMod _ _ => VNum 0
  | TTup ts => VTup (map vzero ts)
  end.

(** IntModNImpl::SubtractBaseInteger, int_mod_n.h:213-219.  kModulus is an
    unsigned __int128, so the else branch is computed modulo 2^128 and then truncated
    to the base integer. *)
Definition mod_sub (w m v a : N) : N :=
  if a <=? v then v - a
  else ((m + P128 - a + v) mod P128) mod 2 ^ w.

(** IntModNImpl::AddBaseInteger, int_mod_n.h:221-223. *)
Definition mod_add (w m v a : N) : N :=
  mod_sub w m v (((m + P128 - a) mod P128) mod 2 ^ w).

(** Unary minus: built-in for integers (modulo 2^w after the conversion back to T),
    int_mod_n.h:244-250, xor_wrapper.h:69-73, tuple.h:77-80 and 112-117. *)
Fixpoint vneg (t : cty) (a : cval) : cval :=
  match t, a with
  | TInt w, VNum x => VNum ((2 ^ w - x mod 2 ^ w) mod 2 ^ w)
  | TXor _, VNum x => VNum x
  | TMod w m, VNum x => VNum (mod_sub w m (0 mod m) x)
  | TTup ts, VTup xs => VTup (zip2 vneg ts xs)
  | _, _ => a
  end.

(** operator+ / operator+=: built-in, xor_wrapper.h:40-43 and 57-61,
    int_mod_n.h:121-124, tuple.h:65-75 and 106-110. *)
Fixpoint vadd (t : cty) (a b : cval) : cval :=
  match t, a, b with
  | TInt w, VNum x, VNum y => VNum ((x + y) mod 2 ^ w)
  | TXor _, VNum x, VNum y => VNum (N.lxor x y)
  | TMod w m, VNum x, VNum y => VNum (mod_add w m x y)
  | TTup ts, VTup xs, VTup ys => VTup (zip3 vadd ts xs ys)
  | _, _, _ => a
  end.

(** Binary operator-: built-in, xor_wrapper.h:44-47 and 63-67, int_mod_n.h:126-129,
    tuple.h:82-86 (lhs + (-rhs)). *)
Definition vsub (t : cty) (a b : cval) : cval :=
  match t, a, b with
  | TInt w, VNum x, VNum y => VNum ((x + (2 ^ w - y mod 2 ^ w)) mod 2 ^ w)
  | TXor _, VNum x, VNum y => VNum (N.lxor x y)
  | TMod w m, VNum x, VNum y => VNum (mod_sub w m x y)
  | TTup _, _, _ => vadd t a (vneg t b)
  | _, _, _ => a
  end.

(** * Conversions to and from protos *)

(** Uint128ToValueInteger, value_type_helpers.cc:145-155. *)
Definition uint128_to_vinteger (x : N) : vinteger :=
  if hi64 x =? 0 then VI64 (lo64 x) else VI128 (hi64 x) (lo64 x).

(** ValueIntegerToUint128, value_type_helpers.cc:157-166. *)
Definition vinteger_to_uint128 (i : vinteger) : res N :=
  match i with
  | VI128 h l => Ok (mk128 h l)
  | VI64 v => Ok (lo64 v)
  | VIUnset => Err INVALID_ARGUMENT
  end.

(** Uint128To<T> for a [w]-bit T, value_type_helpers.h:168-179.  Only the low 64 bits
    are compared with max(T). *)
Definition uint128_to (w x : N) : res N :=
  if negb (w =? 128) && (2 ^ w - 1 <? lo64 x) then Err INVALID_ARGUMENT
  else Ok (x mod 2 ^ w).

Section FromList.
  Variable from : cty -> pvalue -> res cval.
  (** The pack expansion of value_type_helpers.h:376-398: elements in order, first
      error wins. *)
  Fixpoint from_value_list (ts : list cty) (vs : list pvalue) : res (list cval) :=
    match ts, vs with
    | [], _ => Ok []
    | t :: ts', v :: vs' =>
        x <- from t v ;; xs <- from_value_list ts' vs' ;; Ok (x :: xs)
    | _ :: _, [] => UB
    end.
End FromList.

(** ValueTypeHelper<T>::FromValue: value_type_helpers.h:188-200 (integers), 271-286
    (IntModN; the constructor reduces modulo m, int_mod_n.h:107-108), 363-399
    (tuples), 477-488 (XorWrapper: reads value.xor_wrapper() without looking at the
    case, which is the unset default for the other cases). *)
Fixpoint from_value (t : cty) (v : pvalue) : res cval :=
  match t with
  | TInt w =>
      match v with
      | PVInteger i => x <- vinteger_to_uint128 i ;; y <- uint128_to w x ;; Ok (VNum y)
      | _ => Err INVALID_ARGUMENT
      end
  | TMod w m =>
      match v with
      | PVIntModN i =>
          x <- vinteger_to_uint128 i ;;
          if m <=? x then Err INVALID_ARGUMENT
          else Ok (VNum ((x mod 2 ^ w) mod m))
      | _ => Err INVALID_ARGUMENT
      end
  | TTup ts =>
      match v with
      | PVTuple vs =>
          if negb (Nat.eqb (length vs) (length ts)) then Err INVALID_ARGUMENT
          else xs <- from_value_list from_value ts vs ;; Ok (VTup xs)
      | _ => Err INVALID_ARGUMENT
      end
  | TXor w =>
      x <- vinteger_to_uint128 (match v with PVXor i => i | _ => VIUnset end) ;;
      y <- uint128_to w x ;; Ok (VNum y)
  end.

(** ValueTypeHelper<T>::ToValue, value_type_helpers.h:202-206, 288-292, 401-414,
    490-494. *)
Fixpoint to_value (t : cty) (a : cval) : pvalue :=
  match t, a with
  | TInt _, VNum x => PVInteger (uint128_to_vinteger x)
  | TMod _ _, VNum x => PVIntModN (uint128_to_vinteger x)
  | TXor _, VNum x => PVXor (uint128_to_vinteger x)
  | TTup ts, VTup xs => PVTuple (zip2 to_value ts xs)
  | _, _ => PVUnset
  end.

(** ValueTypeHelper<T>::ToValueType, value_type_helpers.h:208-212, 294-301, 416-425,
    496-501. *)
Fixpoint to_value_type (t : cty) : ptype :=
  match t with
  | TInt w => PTInteger (Z.of_N w)
  | TMod w m => PTIntModN (Z.of_N w) (uint128_to_vinteger m)
  | TTup ts => PTTuple (map to_value_type ts)
  | TXor w => PTXor (Z.of_N w)
  end.

(** * Conversion from pseudorandom bytes *)

(** sizeof of a [w]-bit integer (value_type_helpers.h:214). *)
Definition nbytes (w : N) : nat := N.to_nat (w / 8).

(** CanBeConvertedDirectly, value_type_helpers.h:186, 269, 359-361, 473-475. *)
Fixpoint is_direct (t : cty) : bool :=
  match t with
  | TInt _ | TXor _ => true
  | TMod _ _ => false
  | TTup ts => forallb is_direct ts
  end.

(** TotalBitSize, value_type_helpers.h:214, 337-349, 427-430, 503-505 (defined only
    for types that can be converted directly; the IntModN case is never used). *)
Fixpoint total_bits (t : cty) : N :=
  match t with
  | TInt w | TXor w | TMod w _ => w
  | TTup ts => fold_right (fun t acc => total_bits t + acc) 0 ts
  end.
(** (TotalBitSize() + 7) / 8 (value_type_helpers.h:439 and 591). *)
Definition element_size (t : cty) : nat := N.to_nat ((total_bits t + 7) / 8).

(** Integer DirectlyFromBytes, value_type_helpers.h:216-228 (little-endian branch). *)
Definition int_from_bytes (w : N) (b : bytes) : res N :=
  _ <- abort_unless (Nat.eqb (length b) (nbytes w)) ;;
  Ok (le_decode b).

Section DirectList.
  Variable direct : cty -> bytes -> res cval.
  (** The pack expansion of value_type_helpers.h:434-444. *)
  Fixpoint direct_list (ts : list cty) (b : bytes) (offset : nat) : res (list cval) :=
    match ts with
    | [] => Ok []
    | t :: ts' =>
        sub <- substr b offset (element_size t) ;;
        x <- direct t sub ;;
        xs <- direct_list ts' b (offset + element_size t) ;;
        Ok (x :: xs)
    end.
End DirectList.

(** DirectlyFromBytes, value_type_helpers.h:216-228, 432-445, 507-509.  Not defined
    for IntModN (never instantiated). *)
Fixpoint direct_from_bytes (t : cty) (b : bytes) : res cval :=
  match t with
  | TInt w | TXor w => x <- int_from_bytes w b ;; Ok (VNum x)
  | TMod _ _ => Crash
  | TTup ts =>
      _ <- abort_unless (total_bits t <=? 8 * N.of_nat (length b)) ;;
      xs <- direct_list direct_from_bytes ts b 0 ;;
      Ok (VTup xs)
  end.

Section SampleList.
  Variable sample : cty -> bool -> N -> bytes -> res (cval * (N * bytes)).
  (** The pack expansion of value_type_helpers.h:447-460.  [counter] is
      element_counter, which is only incremented when [update] is false (short
      circuit). *)
  Fixpoint sample_list (n : nat) (update : bool) (ts : list cty) (counter : nat)
      (block : N) (rem : bytes) : res (list cval * (N * bytes)) :=
    match ts with
    | [] => Ok ([], (block, rem))
    | t :: ts' =>
        let update2 := update || Nat.ltb (S counter) n in
        '(x, (block', rem')) <- sample t update2 block rem ;;
        '(xs, st) <- sample_list n update ts' (S counter) block' rem' ;;
        Ok (x :: xs, st)
    end.
End SampleList.

(** SampleAndUpdateBytes: value_type_helpers.h:230-251 (integers), 303-328 (IntModN),
    447-460 (tuples), 511-515 (XorWrapper).  [block] is a 128-bit word. *)
Fixpoint sample_and_update (t : cty) (update : bool) (block : N) (rem : bytes)
  : res (cval * (N * bytes)) :=
  match t with
  | TInt w | TXor w =>
      let result := VNum (block mod 2 ^ w) in
      if update then
        let block1 := if w <? 128 then N.ldiff block (N.ones w) else 0 in
        sub <- substr rem 0 (nbytes w) ;;
        x <- int_from_bytes w sub ;;
        rem' <- substr_from rem (nbytes w) ;;
        Ok (result, (N.lor block1 x, rem'))
      else Ok (result, (block, rem))
  | TMod w m =>
      let quotient := block / m in
      let remainder := block mod m in
      let result := VNum ((remainder mod 2 ^ w) mod m) in
      if update then
        let block1 := if w <? 128 then w128 (N.shiftl quotient w) else 0 in
        sub <- substr rem 0 (nbytes w) ;;
        x <- int_from_bytes w sub ;;
        rem' <- substr_from rem (nbytes w) ;;
        Ok (result, (N.lor block1 x, rem'))
      else Ok (result, (block, rem))
  | TTup ts =>
      '(xs, st) <- sample_list sample_and_update (length ts) update ts 0 block rem ;;
      Ok (VTup xs, st)
  end.

(** ElementsPerBlock<T>, value_type_helpers.h:523-537. *)
Definition elements_per_block (t : cty) : nat :=
  if is_direct t then
    if total_bits t <=? 128 then N.to_nat (128 / total_bits t) else 1%nat
  else 1%nat.

(** FromBytes<T>, value_type_helpers.h:543-555. *)
Definition from_bytes (t : cty) (b : bytes) : res cval :=
  if is_direct t then direct_from_bytes t b
  else
    first <- substr b 0 16 ;;
    block <- int_from_bytes 128 first ;;
    rem <- substr_from b 16 ;;
    '(x, _) <- sample_and_update t false block rem ;;
    Ok x.

(** ConvertBytesToArrayOf<T>, value_type_helpers.h:586-606. *)
Definition convert_bytes (t : cty) (b : bytes) : res (list cval) :=
  if is_direct t then
    _ <- abort_unless
           (Nat.leb (elements_per_block t * element_size t) (length b)) ;;
    mapM (fun i => sub <- substr b (i * element_size t) (element_size t) ;;
                   from_bytes t sub)
         (seq 0 (elements_per_block t))
  else x <- from_bytes t b ;; Ok [x].

(** ValuesToArray<T>, value_type_helpers.h:561-580. *)
Definition values_to_array (t : cty) (vs : list pvalue) : res (list cval) :=
  if negb (Nat.eqb (length vs) (elements_per_block t)) then Err INVALID_ARGUMENT
  else mapM (from_value t) vs.

(** ComputeValueCorrectionFor<T>, value_type_helpers.h:614-648. *)
Definition compute_value_correction_for (t : cty) (seed_a seed_b : bytes)
    (block_index : nat) (beta : pvalue) (invert : bool) : res (list pvalue) :=
  beta_T <- from_value t beta ;;
  ints_a <- convert_bytes t seed_a ;;
  ints_b <- convert_bytes t seed_b ;;
  old <- at_or_ub ints_b block_index ;;
  let ints_b := set_nth ints_b block_index (vadd t old beta_T) in
  let ints := zip2 (fun b a => let d := vsub t b a in
                               if invert then vneg t d else d) ints_b ints_a in
  Ok (map (to_value t) ints).

(** * IntModN sampling API *)

(** IntModNBase::CheckParameters, int_mod_n.cc:36-69. *)
Definition check_parameters (F : fops) (num_samples : Z) (bitsize : Z) (modulus : N)
    (sec : dbl) : res unit :=
  if (num_samples <=? 0)%Z then Err INVALID_ARGUMENT
  else if (bitsize <=? 0)%Z then Err INVALID_ARGUMENT
  else if (128 <? bitsize)%Z then Err INVALID_ARGUMENT
  else if ((bitsize <? 128)%Z && (2 ^ Z.to_N bitsize <? modulus)) then
    Err INVALID_ARGUMENT
  else if f_gt_level F sec (Z.to_N num_samples) modulus then Err INVALID_ARGUMENT
  else Ok tt.

(** IntModNBase::GetNumBytesRequired, int_mod_n.cc:71-84.  Simplification: the result
    is an unbounded integer instead of an int (BitsNeeded checks it, see [int_or_ub]). *)
Definition get_num_bytes_required (F : fops) (num_samples : Z) (bitsize : Z)
    (modulus : N) (sec : dbl) : res Z :=
  _ <- check_parameters F num_samples bitsize modulus sec ;;
  Ok (16 + (bitsize + 7) / 8 * (num_samples - 1))%Z.

(** The second loop of UnsafeSampleFromBytes, int_mod_n.h:172-181, for the remaining
    [randomness]; one more sample than randomness words is produced. *)
Fixpoint unsafe_sample_loop (w m r : N) (randomness : list N) : list N :=
  ((r mod m) mod 2 ^ w) mod m ::
  match randomness with
  | [] => []
  | x :: rest =>
      let q := r / m in
      let q := if w <? 128 then w128 (N.shiftl q w) else q in
      unsafe_sample_loop w m (N.lor q x) rest
  end.

(** IntModNImpl::UnsafeSampleFromBytes, int_mod_n.h:159-182, for [n] > 0 samples. *)
Definition unsafe_sample_from_bytes (w m : N) (b : bytes) (n : nat) : res (list N) :=
  first <- substr b 0 16 ;;
  r <- int_from_bytes 128 first ;;
  randomness <- mapM (fun i => sub <- substr b (16 + i * nbytes w) (nbytes w) ;;
                               int_from_bytes w sub) (seq 0 (n - 1)) ;;
  Ok (unsafe_sample_loop w m r randomness).

(** IntModNImpl::SampleFromBytes, int_mod_n.h:190-210. *)
Definition sample_from_bytes (F : fops) (w m : N) (b : bytes) (sec : dbl) (n : nat)
  : res (list N) :=
  if Nat.eqb n 0 then Err INVALID_ARGUMENT
  else
    lower <- get_num_bytes_required F (Z.of_nat n) (Z.of_N w) m sec ;;
    if (Z.of_nat (length b) <? lower)%Z then Err INVALID_ARGUMENT
    else unsafe_sample_from_bytes w m b n.

(** * Value type protos *)

Section EqList.
  Variable eq : ptype -> ptype -> res bool.
  (** The loop of value_type_helpers.cc:45-52 (no short circuit on false). *)
  Fixpoint types_equal_list (l r : list ptype) : res bool :=
    match l, r with
    | a :: l', b :: r' =>
        e <- eq a b ;; es <- types_equal_list l' r' ;; Ok (e && es)
    | _, _ => Ok true
    end.
End EqList.

(** ValueTypesAreEqual, value_type_helpers.cc:33-69. *)
Fixpoint value_types_are_equal (l r : ptype) : res bool :=
  match l, r with
  | PTUnset, _ | _, PTUnset => Err INVALID_ARGUMENT
  | PTInteger a, PTInteger b => Ok (a =? b)%Z
  | PTTuple ls, PTTuple rs =>
      if Nat.eqb (length ls) (length rs)
      then types_equal_list value_types_are_equal ls rs
      else Ok false
  | PTIntModN a m, PTIntModN b n =>
      x <- vinteger_to_uint128 m ;;
      y <- vinteger_to_uint128 n ;;
      Ok ((a =? b)%Z && (x =? y))
  | PTXor a, PTXor b => Ok (a =? b)%Z
  | _, _ => Ok false
  end.

(** el.type_case() == ValueType::kIntModN, value_type_helpers.cc:84. *)
Definition is_int_mod_n (t : ptype) : bool :=
  match t with PTIntModN _ _ => true | _ => false end.

(** The first loop of BitsNeeded on tuples, value_type_helpers.cc:83-104: counts
    IntModN elements and others, and checks that all IntModN elements equal the first
    one. *)
Fixpoint bits_count (els : list ptype) (first : option ptype) (nmod nother : Z)
  : res (option ptype * Z * Z) :=
  match els with
  | [] => Ok (first, nmod, nother)
  | el :: els' =>
      if is_int_mod_n el then
        match first with
        | None => bits_count els' (Some el) (nmod + 1) nother
        | Some f =>
            e <- value_types_are_equal el f ;;
            if e then bits_count els' first (nmod + 1) nother
            else Err UNIMPLEMENTED
        end
      else bits_count els' first nmod (nother + 1)
  end.

(** An int computed without overflow (the sums of value_type_helpers.cc:112, 124 and 126);
    an int64_t that does not fit into an int (line 124) counts as undefined, too. *)
Definition int_or_ub (z : Z) : res Z :=
  if (-2147483648 <=? z)%Z && (z <=? 2147483647)%Z then Ok z else UB.

Section BitsOther.
  Variable bits : ptype -> res Z.
  (** The second loop, value_type_helpers.cc:105-114: sums over elements(i) for
      i < num_other (the elements that are not IntModN are not selected). *)
  Fixpoint bits_other (els : list ptype) (num_other : nat) (acc : Z) : res Z :=
    match num_other, els with
    | O, _ => Ok acc
    | S n, el :: els' =>
        b <- bits el ;; acc' <- int_or_ub (acc + b)%Z ;; bits_other els' n acc'
    | S _, [] => UB
    end.
End BitsOther.

(** BitsNeeded, value_type_helpers.cc:71-141. *)
Fixpoint bits_needed (F : fops) (t : ptype) (sec : dbl) {struct t} : res Z :=
  match t with
  | PTInteger b => Ok b
  | PTTuple els =>
      '(first, nmod, nother) <- bits_count els None 0%Z 0%Z ;;
      other <- bits_other
                 (fun el => bits_needed F el (f_add_log2 F sec (Z.to_N nother)))
                 els (Z.to_nat nother) 0%Z ;;
      imn <- match first with
             | None => Ok 0%Z
             | Some (PTIntModN b m) =>
                 modulus <- vinteger_to_uint128 m ;;
                 n <- get_num_bytes_required F nmod b modulus sec ;;
                 int_or_ub (n * 8)%Z
             | Some _ => UB
             end ;;
      int_or_ub (imn + other)%Z
  | PTIntModN b m =>
      modulus <- vinteger_to_uint128 m ;;
      n <- get_num_bytes_required F 1 b modulus sec ;;
      Ok (8 * n)%Z
  | PTXor b => Ok b
  | PTUnset => Err INVALID_ARGUMENT
  end.

(** ValidateIntegerType, proto_validator.cc:74-87. *)
Definition validate_integer_type (bitsize : Z) : res unit :=
  if (bitsize <? 1)%Z then Err INVALID_ARGUMENT
  else if (128 <? bitsize)%Z then Err INVALID_ARGUMENT
  else if negb (Z.land bitsize (bitsize - 1) =? 0)%Z then Err INVALID_ARGUMENT
  else Ok tt.

(** ValidateIntegerValue, proto_validator.cc:89-100. *)
Definition validate_integer_value (v : vinteger) (bitsize : Z) : res unit :=
  if (bitsize <? 128)%Z then
    x <- vinteger_to_uint128 v ;;
    if 2 ^ Z.to_N bitsize <=? x then Err INVALID_ARGUMENT else Ok tt
  else Ok tt.

(** ProtoValidator::ValidateValueType, proto_validator.cc:269-287. *)
Fixpoint validate_value_type (t : ptype) : res unit :=
  match t with
  | PTInteger b => validate_integer_type b
  | PTTuple els => iterM validate_value_type els
  | PTIntModN b m => _ <- validate_integer_type b ;; validate_integer_value m b
  | PTXor b => validate_integer_type b
  | PTUnset => Err INVALID_ARGUMENT
  end.

Section ValidateList.
  Variable validate : ptype -> pvalue -> res unit.
  (** The loop of proto_validator.cc:307-310. *)
  Fixpoint validate_value_list (ts : list ptype) (vs : list pvalue) : res unit :=
    match ts, vs with
    | [], _ => Ok tt
    | t :: ts', v :: vs' => _ <- validate t v ;; validate_value_list ts' vs'
    | _ :: _, [] => UB
    end.
End ValidateList.

(** ProtoValidator::ValidateValue, proto_validator.cc:289-333. *)
Fixpoint validate_value (t : ptype) (v : pvalue) : res unit :=
  match t with
  | PTInteger b =>
      match v with
      | PVInteger i => validate_integer_value i b
      | _ => Err INVALID_ARGUMENT
      end
  | PTTuple ts =>
      match v with
      | PVTuple vs =>
          if negb (Nat.eqb (length vs) (length ts)) then Err INVALID_ARGUMENT
          else validate_value_list validate_value ts vs
      | _ => Err INVALID_ARGUMENT
      end
  | PTIntModN b m =>
      let i := match v with PVIntModN i => i | _ => VIUnset end in
      _ <- validate_integer_value i b ;;
      x <- vinteger_to_uint128 i ;;
      n <- vinteger_to_uint128 m ;;
      if n <=? x then Err INVALID_ARGUMENT else Ok tt
  | PTXor b =>
      match v with
      | PVXor i => validate_integer_value i b
      | _ => Err INVALID_ARGUMENT
      end
  | PTUnset => Err INVALID_ARGUMENT
  end.
