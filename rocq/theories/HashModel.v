(** Model of pir/hashing: hash families (hash_family.{h,cc}, hash_family_config.cc), the SHA-256 hash
    function (sha256_hash_family.{h,cc}) and the three hash tables ({cuckoo,simple,
    multiple_choice}_hash_table.{h,cc}).

    Simplification: memory allocation never fails. *)
From Coq Require Import List NArith ZArith Bool.
From Verif Require Import Base.
Import ListNotations.
Open Scope N_scope.

(** HashFunction, hash_family.h:37: `int(absl::string_view, int)`. *)
Definition hash_function := bytes -> Z -> res Z.
(** HashFamily, hash_family.h:40. *)
Definition hash_family := bytes -> hash_function.

(** WrapWithSeed, hash_family.h:45-53. *)
Definition wrap_with_seed (family : hash_family) (seed : bytes) : hash_family :=
  fun s => family (seed ++ s).

(** absl::StrCat(i) for a non-negative int: the decimal digits in ASCII (hash_family.cc:36). *)
Fixpoint digits_fuel (fuel : nat) (x : N) (acc : bytes) : bytes :=
  match fuel with
  | O => acc
  | S fuel' =>
      let acc := (48 + x mod 10) :: acc in
      if x / 10 =? 0 then acc else digits_fuel fuel' (x / 10) acc
  end.
(** absl::StrCat(i) for a non-negative int, hash_family.cc:36. *)
Definition str_cat (x : N) : bytes := digits_fuel (N.to_nat (N.size x) + 1) x [].

(** CreateHashFunctions, hash_family.cc:27-39. *)
Definition create_hash_functions (family : hash_family) (num_hash_functions : Z) : res (list hash_function) :=
  _ <- check (negb (num_hash_functions <? 0)%Z) INVALID_ARGUMENT ;;
  Ok (map (fun i => family (str_cat (N.of_nat i))) (seq 0 (Z.to_nat num_hash_functions))).

(** HashFamilyConfig, hash_family_config.proto; 0 is HASH_FAMILY_UNSPECIFIED and 1 is
    HASH_FAMILY_SHA256 (hash_family_config.proto:25-35). *)
Record hash_family_config := { hf_family : Z; hf_seed : bytes }.

(** * SHA-256 *)

Section Sha.
(** SHA256 of a string (OpenSSL): 32 bytes. *)
Variable sha256 : bytes -> bytes.

(** A SHA256_CTX is represented by the data it has been fed: SHA256_Update appends
    (sha256_hash_family.cc:32-43). *)
Definition sha_update (ctx data : bytes) : bytes := ctx ++ data.
(** SHA256UpdateWithData, sha256_hash_family.cc:32-44; [fuel] is at least the number of
    iterations of the loop. *)
Fixpoint sha_update_loop (fuel : nat) (data ctx : bytes) : bytes :=
  match fuel with
  | O => sha_update ctx data
  | S fuel' =>
      if 2 ^ 30 <? N.of_nat (length data)
      then sha_update_loop fuel' (skipn (N.to_nat (2 ^ 30)) data)
             (sha_update ctx (firstn (N.to_nat (2 ^ 30)) data))
      else sha_update ctx data
  end.
(** SHA256UpdateWithData, sha256_hash_family.cc:32-43. *)
Definition sha_update_with_data (data ctx : bytes) : bytes :=
  sha_update_loop (length data) data ctx.

(** `x % upper_bound` for an absl::uint128 and an int, which is sign-extended; the result is
    truncated to uint64_t.  Division by zero is undefined (sha256_hash_family.cc:80, 83 and 86). *)
Definition mod_int (x : N) (upper_bound : Z) : res N :=
  let m := Z.to_N (upper_bound mod Z.of_N P128) in
  if m =? 0 then UB else Ok (x mod m).

(** SHA256HashFunction, sha256_hash_family.cc:48-87: the constructor and operator(). *)
Definition sha256_hash_function (seed : bytes) : hash_function :=
  let ctx := sha_update_with_data seed [] in
  fun input upper_bound =>
    let hash := sha256 (sha_update_with_data input ctx) in
    let hi := le_decode (firstn 16 (skipn 16 hash)) in
    let lo := le_decode (firstn 16 hash) in
    remainder1 <- mod_int hi upper_bound ;;
    remainder2 <- mod_int (mk128 (lo64 remainder1) (hi64 lo)) upper_bound ;;
    remainder3 <- mod_int (mk128 (lo64 remainder2) (lo64 lo)) upper_bound ;;
    Ok (to_int32 (Z.of_N remainder3)).
(** SHA256HashFamily, sha256_hash_family.h:44-48. *)
Definition sha256_hash_family : hash_family := sha256_hash_function.

(** CreateHashFamilyFromConfig, hash_family_config.cc:27-45. *)
Definition hash_family_from_config (config : hash_family_config) : res hash_family :=
  _ <- check (negb (Nat.eqb (length (hf_seed config)) 0)) INVALID_ARGUMENT ;;
  _ <- check (hf_family config =? 1)%Z INVALID_ARGUMENT ;;
  Ok (wrap_with_seed sha256_hash_family (hf_seed config)).
End Sha.

(** * Cuckoo hash table *)

(** CuckooHashTable, cuckoo_hash_table.h:98-108.  The random choices of the table are a stream
    passed to Insert; [ck_draws] is the position in that stream. *)
Record cuckoo := {
  ck_buckets : Z;
  ck_relocations : Z;
  ck_stash_limit : option Z;
  ck_functions : list hash_function;
  ck_table : list (option bytes);
  ck_stash : list bytes;
  ck_draws : nat
}.

(** Create, cuckoo_hash_table.cc:47-65, and the constructor, 33-45. *)
Definition cuckoo_create (functions : list hash_function) (num_buckets max_relocations : Z)
    (max_stash_size : option Z) : res cuckoo :=
  _ <- check (negb (num_buckets <=? 0)%Z) INVALID_ARGUMENT ;;
  _ <- check (negb (Nat.ltb (length functions) 2)) INVALID_ARGUMENT ;;
  _ <- check (negb (max_relocations <? 0)%Z) INVALID_ARGUMENT ;;
  _ <- check (match max_stash_size with Some s => negb (s <? 0)%Z | None => true end) INVALID_ARGUMENT ;;
  Ok {| ck_buckets := num_buckets; ck_relocations := max_relocations; ck_stash_limit := max_stash_size;
        ck_functions := functions; ck_table := repeat None (Z.to_nat num_buckets); ck_stash := [];
        ck_draws := 0 |}.
(** Create from a hash family, cuckoo_hash_table.h:55-65. *)
Definition cuckoo_create_family (family : hash_family) (num_buckets num_hash_functions max_relocations : Z)
    (max_stash_size : option Z) : res cuckoo :=
  functions <- create_hash_functions family num_hash_functions ;;
  cuckoo_create functions num_buckets max_relocations max_stash_size.

(** Assignment to an entry of table_, cuckoo_hash_table.cc:75 and 78. *)
Definition with_table (c : cuckoo) (table : list (option bytes)) : cuckoo :=
  {| ck_buckets := ck_buckets c; ck_relocations := ck_relocations c; ck_stash_limit := ck_stash_limit c;
     ck_functions := ck_functions c; ck_table := table; ck_stash := ck_stash c; ck_draws := ck_draws c |}.
(** One draw from rng_, cuckoo_hash_table.cc:71. *)
Definition with_draw (c : cuckoo) : cuckoo :=
  {| ck_buckets := ck_buckets c; ck_relocations := ck_relocations c; ck_stash_limit := ck_stash_limit c;
     ck_functions := ck_functions c; ck_table := ck_table c; ck_stash := ck_stash c;
     ck_draws := S (ck_draws c) |}.
(** stash_.push_back, cuckoo_hash_table.cc:87. *)
Definition with_stash (c : cuckoo) (stash : list bytes) : cuckoo :=
  {| ck_buckets := ck_buckets c; ck_relocations := ck_relocations c; ck_stash_limit := ck_stash_limit c;
     ck_functions := ck_functions c; ck_table := ck_table c; ck_stash := stash; ck_draws := ck_draws c |}.

(** The bucket chosen for an element, cuckoo_hash_table.cc:71-72. *)
Definition cuckoo_slot (rnd : nat -> nat) (c : cuckoo) (element : bytes) : res (Z * option bytes) :=
  f <- at_or_ub (ck_functions c) (rnd (ck_draws c)) ;;
  hash <- f element (ck_buckets c) ;;
  slot <- atz_or_ub (ck_table c) hash ;;
  Ok (hash, slot).

(** The loop of Insert, cuckoo_hash_table.cc:69-81; [Some e] if the element [e] is left over
    after all relocations. *)
Fixpoint cuckoo_loop (rnd : nat -> nat) (relocations : nat) (c : cuckoo) (current : bytes)
  : res (option bytes) * cuckoo :=
  match relocations with
  | O => (Ok (Some current), c)
  | S relocations' =>
      match cuckoo_slot rnd c current with
      | Ok (hash, slot) =>
          let c' := with_table (with_draw c) (set_nth (ck_table c) (Z.to_nat hash) (Some current)) in
          match slot with
          | Some evicted => cuckoo_loop rnd relocations' c' evicted
          | None => (Ok None, c')
          end
      | Err e => (Err e, with_draw c)
      | Crash => (Crash, with_draw c)
      | UB => (UB, with_draw c)
      end
  end.

(** Insert, cuckoo_hash_table.cc:67-90: the status and the table afterwards. *)
Definition cuckoo_insert (rnd : nat -> nat) (c : cuckoo) (input : bytes) : res unit * cuckoo :=
  match cuckoo_loop rnd (Z.to_nat (ck_relocations c)) c input with
  | (Ok None, c') => (Ok tt, c')
  | (Ok (Some current), c') =>
      if match ck_stash_limit c' with
         | Some s => (s <=? Z.of_nat (length (ck_stash c')))%Z
         | None => false end
      then (Err INTERNAL, c')
      else (Ok tt, with_stash c' (ck_stash c' ++ [current]))
  | (Err e, c') => (Err e, c')
  | (Crash, c') => (Crash, c')
  | (UB, c') => (UB, c')
  end.

(** * Simple and multiple choice hash tables *)

(** SimpleHashTable, simple_hash_table.h:85-89, and MultipleChoiceHashTable,
    multiple_choice_hash_table.h:78-82, have the same members. *)
Record buckets := {
  bk_buckets : Z;
  bk_limit : option Z;
  bk_functions : list hash_function;
  bk_table : list (list bytes)
}.

(** Both Create functions, simple_hash_table.cc:31-53 and multiple_choice_hash_table.cc:31-55, which
    differ in the number of hash functions they require. *)
Definition buckets_create (min_functions : nat) (functions : list hash_function) (num_buckets : Z)
    (max_bucket_size : option Z) : res buckets :=
  _ <- check (negb (num_buckets <=? 0)%Z) INVALID_ARGUMENT ;;
  _ <- check (negb (Nat.ltb (length functions) min_functions)) INVALID_ARGUMENT ;;
  _ <- check (match max_bucket_size with Some s => negb (s <=? 0)%Z | None => true end) INVALID_ARGUMENT ;;
  Ok {| bk_buckets := num_buckets; bk_limit := max_bucket_size; bk_functions := functions;
        bk_table := repeat [] (Z.to_nat num_buckets) |}.
(** SimpleHashTable::Create, simple_hash_table.cc:31-53. *)
Definition simple_create := buckets_create 1.
(** MultipleChoiceHashTable::Create, multiple_choice_hash_table.cc:31-55. *)
Definition choice_create := buckets_create 2.

(** Assignment to table_, simple_hash_table.cc:67 and multiple_choice_hash_table.cc:70. *)
Definition with_buckets (b : buckets) (table : list (list bytes)) : buckets :=
  {| bk_buckets := bk_buckets b; bk_limit := bk_limit b; bk_functions := bk_functions b; bk_table := table |}.
(** `max_bucket_size_ && bucket.size() >= *max_bucket_size_`
    (simple_hash_table.cc:59 and multiple_choice_hash_table.cc:66). *)
Definition bucket_full (b : buckets) (bucket : list bytes) : bool :=
  match bk_limit b with Some m => (m <=? Z.of_nat (length bucket))%Z | None => false end.
(** table_[i].push_back(x) (simple_hash_table.cc:67 and multiple_choice_hash_table.cc:70). *)
Definition push_bucket (table : list (list bytes)) (i : Z) (x : bytes) : res (list (list bytes)) :=
  bucket <- atz_or_ub table i ;;
  Ok (set_nth table (Z.to_nat i) (bucket ++ [x])).

(** The first loop of SimpleHashTable::Insert, simple_hash_table.cc:56-63. *)
Definition simple_hashes (b : buckets) (input : bytes) : res (list Z) :=
  mapM (fun f : hash_function =>
          hash <- f input (bk_buckets b) ;;
          _ <- match bk_limit b with
               | Some _ => bucket <- atz_or_ub (bk_table b) hash ;; check (negb (bucket_full b bucket)) INTERNAL
               | None => Ok tt
               end ;;
          Ok hash) (bk_functions b).
(** SimpleHashTable::Insert, simple_hash_table.cc:55-70. *)
Definition simple_insert (b : buckets) (input : bytes) : res unit * buckets :=
  match (hashes <- simple_hashes b input ;;
         foldM (fun t hash => push_bucket t hash input) hashes (bk_table b)) with
  | Ok t => (Ok tt, with_buckets b t)
  | Err e => (Err e, b)
  | Crash => (Crash, b)
  | UB => (UB, b)
  end.

(** The choice of the bucket, multiple_choice_hash_table.cc:58-66; [first] is `i == 0`. *)
Fixpoint choice_loop (b : buckets) (input : bytes) (fs : list hash_function) (first : bool) (smallest : Z) : res Z :=
  match fs with
  | [] => Ok smallest
  | f :: fs' =>
      hash <- f input (bk_buckets b) ;;
      better <- (if first then Ok true
                 else bh <- atz_or_ub (bk_table b) hash ;;
                      bs <- atz_or_ub (bk_table b) smallest ;;
                      Ok (Nat.ltb (length bh) (length bs))) ;;
      choice_loop b input fs' false (if better : bool then hash else smallest)
  end.
(** MultipleChoiceHashTable::Insert, multiple_choice_hash_table.cc:57-72. *)
Definition choice_insert (b : buckets) (input : bytes) : res unit * buckets :=
  match (smallest <- choice_loop b input (bk_functions b) true 0%Z ;;
         bucket <- atz_or_ub (bk_table b) smallest ;;
         _ <- check (negb (bucket_full b bucket)) INTERNAL ;;
         push_bucket (bk_table b) smallest input) with
  | Ok t => (Ok tt, with_buckets b t)
  | Err e => (Err e, b)
  | Crash => (Crash, b)
  | UB => (UB, b)
  end.

(** A sequence of calls of Insert: the statuses and the final table
    (cuckoo_hashed_dpf_pir_database.cc:145-150). *)
Fixpoint insert_all {T} (insert : T -> bytes -> res unit * T) (t : T) (inputs : list bytes)
  : list (res unit) * T :=
  match inputs with
  | [] => ([], t)
  | x :: inputs' =>
      let '(r, t') := insert t x in
      let '(rs, t'') := insert_all insert t' inputs' in
      (r :: rs, t'')
  end.
