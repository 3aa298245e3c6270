(** Model of the testing library pir/testing, of the random number generator in dcf/fss_gates/prng and
    of pir/hashing/farm_hash_family. *)
From Coq Require Import List NArith ZArith Bool.
From Verif Require Import Base ValueTypesModel DpfModel PirDbModel PirModel HashModel.
Import ListNotations.
Open Scope N_scope.

(** * pir/testing/pir_selection_bits *)

(** One block of PackSelectionBits, pir_selection_bits.h:42-52, for 128-bit blocks. *)
Definition pack_block (selections : list bool) (i : nat) : N :=
  fold_left (fun block j =>
               match nth_error selections (i * 128 + j) with
               | Some true => N.lor block (N.shiftl 1 (N.of_nat j))
               | _ => block
               end) (seq 0 128) 0.
(** PackSelectionBits, pir_selection_bits.h:33-55.  The number of blocks is truncated to an int; the
    product of a block number and 128 is an int, which overflows for more than 2^24 blocks.  The loop over a
    block ends at the end of the vector; here the positions after it are skipped. *)
Definition pack_selection_bits (selections : list bool) : res (list N) :=
  let num_blocks := to_int32 (Z.of_nat (Nat.div (length selections + 127) 128)) in
  if (num_blocks <=? 16777216)%Z
  then Ok (map (pack_block selections) (seq 0 (Z.to_nat num_blocks)))
  else UB.

(** `result[j] ^= value[j]` for all j below the size of value; the result is not shorter
    (pir_selection_bits.cc:42-44). *)
Fixpoint xor_into (result value : bytes) {struct value} : res bytes :=
  match value, result with
  | [], _ => Ok result
  | y :: value', x :: result' => rest <- xor_into result' value' ;; Ok (N.lxor x y :: rest)
  | _ :: _, [] => UB
  end.
(** InnerProductWithUnpacked, pir_selection_bits.cc:29-48.  The loop variables are ints. *)
Definition inner_product_unpacked (selections : list bool) (values : list bytes) : res bytes :=
  _ <- check (Nat.eqb (length values) (length selections)) INVALID_ARGUMENT ;;
  if N.of_nat (length selections) <? 2 ^ 31
  then foldM (fun result (sv : bool * bytes) =>
                let result := if Nat.ltb (length result) (length (snd sv))
                              then result ++ repeat 0 (length (snd sv) - length result) else result in
                if fst sv
                then if N.of_nat (length (snd sv)) <? 2 ^ 31 then xor_into result (snd sv) else UB
                else Ok result) (combine selections values) []
  else UB.

(** * pir/testing/request_generator *)

Section Generator.
Variable aes : N -> N -> N.
Variable F : fops.
(** static_cast<int>(std::ceil(std::log2(n))). *)
Variable clog : Z -> Z.

(** RequestGenerator, request_generator.h:63-66. *)
Record generator := { rg_dpf : dpf; rg_seed : bytes; rg_context : bytes; rg_size : Z }.
(** Create, request_generator.cc:48-65; [otp_seed] is the result of GenerateSeed. *)
Definition generator_create (database_size : Z) (context otp_seed : bytes) : res generator :=
  _ <- check (negb (database_size <=? 0)%Z) INVALID_ARGUMENT ;;
  d <- create_incremental F (dense_params clog database_size) ;;
  Ok {| rg_dpf := d; rg_seed := otp_seed; rg_context := context; rg_size := database_size |}.
(** CreateDpfPirPlainRequests, request_generator.cc:67-88.  Each index is checked just before its keys are
    generated; [seeds i] are the random seeds for index [i]. *)
Definition generator_plain_requests (g : generator) (indices : list Z) (seeds : nat -> N * N)
  : res (plain_request * plain_request) :=
  '(keys1, keys2) <- foldM (fun (acc : list dkey * list dkey) (ix : nat * Z) =>
      _ <- check (negb (snd ix <? 0)%Z) INVALID_ARGUMENT ;;
      _ <- check (negb (rg_size g <=? snd ix)%Z) INVALID_ARGUMENT ;;
      let alpha := Z.to_N (Z.quot (snd ix) 128) in
      let beta := VNum (w128 (N.shiftl 1 (Z.to_N (Z.rem (snd ix) 128)))) in
      '(k1, k2) <- generate_keys aes (register_value_type block_type (rg_dpf g)) alpha [to_value block_type beta]
                     (fst (seeds (fst ix))) (snd (seeds (fst ix))) ;;
      Ok (fst acc ++ [k1], snd acc ++ [k2])) (combine (seq 0 (length indices)) indices) ([], []) ;;
  Ok ({| pq_keys := keys1; pq_fingerprint := 0 |}, {| pq_keys := keys2; pq_fingerprint := 0 |}).
(** CreateDpfPirLeaderRequest, request_generator.cc:90-107, with the serialization and encryption of the
    test encrypter as arguments. *)
Definition generator_leader_request (ser : helper_request -> bytes) (enc : bytes -> bytes -> res bytes)
    (g : generator) (indices : list Z) (seeds : nat -> N * N) : res (plain_request * bytes) :=
  '(leader, helper) <- generator_plain_requests g indices seeds ;;
  c <- enc (ser {| hq_plain := Some helper; hq_seed := rg_seed g |}) (rg_context g) ;;
  Ok (leader, c).
End Generator.

(** * pir/testing/mock_pir_database *)

(** absl::StrCat of a non-negative int: its decimal digits, without leading zeros; [fuel] bounds their number
    (mock_pir_database.cc:43). *)
Fixpoint decimal (fuel : nat) (n : N) (rest : bytes) : bytes :=
  match fuel with
  | O => rest
  | S fuel' => let rest := (48 + n mod 10) :: rest in if n / 10 =? 0 then rest else decimal fuel' (n / 10) rest
  end.
(** GenerateCountingStrings, mock_pir_database.cc:35-46. *)
Definition counting_strings (num_elements : Z) (prefix : bytes) : res (list bytes) :=
  _ <- check (negb (num_elements <? 0)%Z) INVALID_ARGUMENT ;;
  Ok (map (fun i => prefix ++ decimal 10 (N.of_nat i) []) (seq 0 (Z.to_nat num_elements))).
(** GenerateRandomStrings, mock_pir_database.cc:50-64; [rnd i] is what RAND_bytes writes for element [i]. *)
Definition random_strings (rnd : nat -> bytes) (element_sizes : list Z) : res (list bytes) :=
  mapM (fun is : nat * Z =>
          _ <- check (negb (snd is <? 0)%Z) INVALID_ARGUMENT ;;
          Ok (firstn (Z.to_nat (snd is)) (rnd (fst is)))) (combine (seq 0 (length element_sizes)) element_sizes).
(** GenerateRandomStringsEqualSize, mock_pir_database.cc:68-78. *)
Definition random_strings_equal_size (rnd : nat -> bytes) (num_elements element_size : Z) : res (list bytes) :=
  _ <- check (negb (num_elements <? 0)%Z) INVALID_ARGUMENT ;;
  _ <- check (negb (element_size <? 0)%Z) INVALID_ARGUMENT ;;
  random_strings rnd (repeat element_size (Z.to_nat num_elements)).
(** GenerateRandomStringsVariableSize, mock_pir_database.cc:83-101; [draw i] is the [i]-th result of
    absl::Uniform.  The sum is an int. *)
Definition random_strings_variable_size (rnd : nat -> bytes) (draw : nat -> Z) (num_elements avg_element_size max_size_diff : Z)
  : res (list bytes) :=
  _ <- check (negb (num_elements <? 0)%Z) INVALID_ARGUMENT ;;
  _ <- check (negb (avg_element_size <? 0)%Z) INVALID_ARGUMENT ;;
  _ <- check (negb (max_size_diff <? 0)%Z) INVALID_ARGUMENT ;;
  sizes <- mapM (fun i => let s := (avg_element_size + draw i)%Z in if (s <? 2147483648)%Z then Ok s else UB)
                (seq 0 (Z.to_nat num_elements)) ;;
  random_strings rnd sizes.

(** * dcf/fss_gates/prng/basic_rng *)

(** BasicRng::Rand<T>, basic_rng.h:64-73, for an unsigned integer T of [n] bytes on a little-endian host.
    [raw] is what RAND_bytes writes, or [None] if it fails. *)
Definition basic_rand (n : nat) (raw : option bytes) : res N :=
  match raw with Some b => Ok (le_decode (firstn n b)) | None => Err INTERNAL end.

(** * pir/hashing/farm_hash_family *)

(** FarmHashFunction, farm_hash_family.h:27-35 and farm_hash_family.cc:24-29; [hash128] and
    [hash128_with_seed] are the functions of the farmhash library, which return a first and a second
    uint64_t. *)
Definition farm_hash_function (hash128 : bytes -> N * N) (hash128_with_seed : bytes -> N * N -> N * N) (seed : bytes)
  : hash_function :=
  fun input upper_bound =>
    let hash := hash128_with_seed input (hash128 seed) in
    r <- mod_int (mk128 (snd hash) (fst hash)) upper_bound ;;
    Ok (to_int32 (Z.of_N r)).
