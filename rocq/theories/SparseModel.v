(** Model of sparse PIR: the hashed databases (pir/{cuckoo,simple}_hashed_dpf_pir_database.{h,cc}) and
    the clients and servers (pir/{cuckoo,simple}_hashing_sparse_dpf_pir_{client,server}.{h,cc}).

    Simplifications: the underlying databases are always DenseDpfPirDatabase; memory allocation never
    fails. *)
From Coq Require Import List NArith ZArith QArith Bool.
From Verif Require Import Base ValueTypesModel DpfModel PirDbModel PirModel HashModel.
Import ListNotations.
Open Scope N_scope.

(** SimpleHashingParams, CuckooHashingParams and PirServerPublicParams
    (pir/private_information_retrieval.proto, pir/hashing/hash_family_config.proto)
    (private_information_retrieval.proto:57-62 and 102-117). *)
Record cuckoo_params := { cp_hash : hash_family_config; cp_functions : Z; cp_buckets : Z }.
(** SimpleHashingParams, private_information_retrieval.proto:112-117. *)
Record simple_params := { sp_hash : hash_family_config; sp_buckets : Z }.
(** PirServerPublicParams, private_information_retrieval.proto:57-62. *)
Inductive public_params :=
| PpUnset
| PpCuckoo (p : cuckoo_params)
| PpSimple (p : simple_params).

(** * absl::btree_map<std::string, std::string> *)

(** Comparison of strings as unsigned bytes (cuckoo_hashed_dpf_pir_database.h:79-85). *)
Fixpoint compare_bytes (a b : bytes) : comparison :=
  match a, b with
  | [], [] => Eq
  | [], _ => Lt
  | _, [] => Gt
  | x :: a', y :: b' => match x ?= y with Eq => compare_bytes a' b' | c => c end
  end.
(** insert: does nothing if the key is present (cuckoo_hashed_dpf_pir_database.cc:73). *)
Fixpoint map_insert (m : list (bytes * bytes)) (kv : bytes * bytes) : list (bytes * bytes) :=
  match m with
  | [] => [kv]
  | (k, v) :: m' =>
      match compare_bytes (fst kv) k with
      | Lt => kv :: m
      | Eq => m
      | Gt => (k, v) :: map_insert m' kv
      end
  end.
(** extract(key): the value and the remaining map; the node handle is empty if the key is absent
    and mapped() is then undefined (cuckoo_hashed_dpf_pir_database.cc:161). *)
Fixpoint map_extract (m : list (bytes * bytes)) (key : bytes) : res (bytes * list (bytes * bytes)) :=
  match m with
  | [] => UB
  | (k, v) :: m' =>
      match compare_bytes key k with
      | Eq => Ok (v, m')
      | _ => '(x, m'') <- map_extract m' key ;; Ok (x, (k, v) :: m'')
      end
  end.

(** * Cuckoo hashed database *)

(** CuckooHashedDpfPirDatabase::Builder, cuckoo_hashed_dpf_pir_database.h:79-85. *)
Record cuckoo_builder := {
  cb_params : cuckoo_params;
  cb_keys : option builder;
  cb_values : option builder;
  cb_records : list (bytes * bytes);
  cb_built : bool
}.
(** params_(), cuckoo_hashed_dpf_pir_database.cc:50. *)
Definition default_cuckoo_params : cuckoo_params :=
  {| cp_hash := {| hf_family := 0; hf_seed := [] |}; cp_functions := 0; cp_buckets := 0 |}.
(** Builder(), cuckoo_hashed_dpf_pir_database.cc:49-54. *)
Definition cuckoo_new : cuckoo_builder :=
  {| cb_params := default_cuckoo_params; cb_keys := None; cb_values := None; cb_records := []; cb_built := false |}.
(** Clone, cuckoo_hashed_dpf_pir_database.cc:56-69. *)
Definition cuckoo_clone (b : cuckoo_builder) : cuckoo_builder :=
  {| cb_params := cb_params b; cb_keys := option_map clone (cb_keys b); cb_values := option_map clone (cb_values b);
     cb_records := cb_records b; cb_built := cb_built b |}.
(** Insert, cuckoo_hashed_dpf_pir_database.cc:71-75. *)
Definition cuckoo_add (b : cuckoo_builder) (kv : bytes * bytes) : cuckoo_builder :=
  {| cb_params := cb_params b; cb_keys := cb_keys b; cb_values := cb_values b;
     cb_records := map_insert (cb_records b) kv; cb_built := cb_built b |}.
(** Clear, cuckoo_hashed_dpf_pir_database.cc:77-88. *)
Definition cuckoo_clear (b : cuckoo_builder) : cuckoo_builder :=
  {| cb_params := cb_params b; cb_keys := option_map clear (cb_keys b); cb_values := option_map clear (cb_values b);
     cb_records := []; cb_built := false |}.
(** SetParams, cuckoo_hashed_dpf_pir_database.cc:90-94. *)
Definition cuckoo_set_params (b : cuckoo_builder) (p : cuckoo_params) : cuckoo_builder :=
  {| cb_params := p; cb_keys := cb_keys b; cb_values := cb_values b; cb_records := cb_records b; cb_built := cb_built b |}.
(** SetKeyDatabaseBuilder and SetValueDatabaseBuilder, cuckoo_hashed_dpf_pir_database.cc:96-114. *)
Definition cuckoo_set_key_builder (b : cuckoo_builder) (d : option builder) : cuckoo_builder :=
  {| cb_params := cb_params b; cb_keys := option_map clear d; cb_values := cb_values b;
     cb_records := cb_records b; cb_built := cb_built b |}.
(** SetValueDatabaseBuilder, cuckoo_hashed_dpf_pir_database.cc:106-114. *)
Definition cuckoo_set_value_builder (b : cuckoo_builder) (d : option builder) : cuckoo_builder :=
  {| cb_params := cb_params b; cb_keys := cb_keys b; cb_values := option_map clear d;
     cb_records := cb_records b; cb_built := cb_built b |}.

(** Builders that are created when none was set, cuckoo_hashed_dpf_pir_database.cc:132-137. *)
Definition or_new (b : option builder) : builder := match b with Some b => b | None => new_builder end.

(** CuckooHashedDpfPirDatabase, cuckoo_hashed_dpf_pir_database.h:104-110. *)
Record cuckoo_db := { cd_keys : db; cd_values : db; cd_size : Z; cd_bits : nat }.

Section Sparse.
Variable sha256 : bytes -> bytes.

(** The loop that hashes all keys, cuckoo_hashed_dpf_pir_database.cc:145-150. *)
Definition cuckoo_hash_keys (rnd : nat -> nat) (records : list (bytes * bytes)) (c : cuckoo) : res cuckoo :=
  foldM (fun c (kv : bytes * bytes) =>
           _ <- check (negb (Nat.eqb (length (fst kv)) 0)) INVALID_ARGUMENT ;;
           match cuckoo_insert rnd c (fst kv) with
           | (Ok _, c') => Ok c'
           | (Err e, _) => Err e
           | (Crash, _) => Crash
           | (UB, _) => UB
           end) records c.
(** The loop over the buckets, cuckoo_hashed_dpf_pir_database.cc:154-166. *)
Definition cuckoo_fill (table : list (option bytes)) (records : list (bytes * bytes)) (keys values : builder)
  : res (builder * builder) :=
  '(_, ks, vs) <- foldM (fun st slot =>
      let '(records, ks, vs) := st in
      match slot with
      | Some key =>
          '(value, records) <- map_extract records key ;;
          Ok (records, insert ks key, insert vs value)
      | None => Ok (records, insert ks [], insert vs [])
      end) table (records, keys, values) ;;
  Ok (ks, vs).
(** Build, cuckoo_hashed_dpf_pir_database.cc:116-181: num_buckets and the number of records are
    converted to int for the hash table. *)
Definition cuckoo_build_db (rnd : nat -> nat) (ak av : alloc) (b : cuckoo_builder) : res cuckoo_db :=
  let p := cb_params b in
  _ <- check (negb (cp_buckets p <=? 0)%Z) INVALID_ARGUMENT ;;
  _ <- check (negb (cp_functions p <=? 0)%Z) INVALID_ARGUMENT ;;
  family <- hash_family_from_config sha256 (cp_hash p) ;;
  let num_records := Z.of_nat (length (cb_records b)) in
  hasher <- cuckoo_create_family family (to_int32 (cp_buckets p)) (cp_functions p) (to_int32 num_records) None ;;
  hasher <- cuckoo_hash_keys rnd (cb_records b) hasher ;;
  '(ks, vs) <- cuckoo_fill (ck_table hasher) (cb_records b) (or_new (cb_keys b)) (or_new (cb_values b)) ;;
  key_db <- fst (build ak ks) ;;
  value_db <- fst (build av vs) ;;
  _ <- check (Nat.eqb (db_size key_db) (db_size value_db) && (Z.of_nat (db_size key_db) =? cp_buckets p)%Z) INTERNAL ;;
  Ok {| cd_keys := key_db; cd_values := value_db; cd_size := num_records; cd_bits := db_size key_db |}.
(** The result of Build, cuckoo_hashed_dpf_pir_database.cc:116-181. *)
Definition cuckoo_build (rnd : nat -> nat) (ak av : alloc) (b : cuckoo_builder) : res cuckoo_db :=
  if cb_built b then Err FAILED_PRECONDITION else cuckoo_build_db rnd ak av b.
(** The builder after Build, cuckoo_hashed_dpf_pir_database.cc:116-181: it is marked as built first;
    depending on where Build returns, the underlying builders have been created, filled or emptied
    and some records extracted, so these fields are taken from the arbitrary [lo]. *)
Definition cuckoo_after_build (lo : cuckoo_builder) (b : cuckoo_builder) : cuckoo_builder :=
  if cb_built b then b
  else {| cb_params := cb_params b; cb_keys := cb_keys lo; cb_values := cb_values lo;
          cb_records := cb_records lo; cb_built := true |}.

(** InnerProductWith, cuckoo_hashed_dpf_pir_database.cc:183-202. *)
Definition cuckoo_inner_product (t : target) (d : cuckoo_db) (selections : list (list N)) : res (list (bytes * bytes)) :=
  keys <- inner_product_with t (cd_keys d) selections ;;
  values <- inner_product_with t (cd_values d) selections ;;
  _ <- check (Nat.eqb (length keys) (length values) && Nat.eqb (length keys) (length selections)) INTERNAL ;;
  Ok (combine keys values).

(** * Simple hashed database *)

(** HashedPirDatabaseBucket: keys and values (private_information_retrieval.proto:120-123). *)
Definition bucket_proto : Type := list bytes * list bytes.
(** Base-128 varints and length-delimited fields of the protocol buffer encoding
    (simple_hashed_dpf_pir_database.cc:139). *)
Fixpoint varint_encode (fuel : nat) (x : N) : bytes :=
  match fuel with
  | O => []
  | S fuel' => if x <? 128 then [x] else (128 + x mod 128) :: varint_encode fuel' (x / 128)
  end.
(** A length-delimited field, simple_hashed_dpf_pir_database.cc:139. *)
Definition encode_field (tag : N) (data : bytes) : bytes :=
  tag :: varint_encode 10 (N.of_nat (length data)) ++ data.
(** SerializeToCodedStream: fields in the order of their numbers (keys = 1, values = 2, wire
    type 2) (simple_hashed_dpf_pir_database.cc:129-142). *)
Definition serialize_bucket (b : bucket_proto) : bytes :=
  flat_map (encode_field 10) (fst b) ++ flat_map (encode_field 18) (snd b).
(** Reading a varint of at most 10 bytes, simple_hashing_sparse_dpf_pir_client.cc:195-203. *)
Fixpoint varint_decode (fuel : nat) (b : bytes) : option (N * bytes) :=
  match fuel with
  | O => None
  | S fuel' =>
      match b with
      | [] => None
      | x :: b' =>
          if x <? 128 then Some (x, b')
          else match varint_decode fuel' b' with
               | Some (y, r) => Some (x mod 128 + 128 * y, r)
               | None => None
               end
      end
  end.
(** The part of the input after [n] bytes, None if it is shorter, simple_hashing_sparse_dpf_pir_client.cc:195-203. *)
Definition skip_bytes (n : N) (b : bytes) : option bytes :=
  if N.of_nat (length b) <? n then None else Some (skipn (N.to_nat n) b).
(** ParseFromCodedStream: parsing ends at the end of the input or at a tag 0; what has been parsed
    is kept if the input is malformed.  Other fields are skipped by their wire type (varint, 8 bytes,
    length-delimited, group, 4 bytes); [groups] are the numbers of the groups around the field, at
    most 100.  Simplification: the limits on the encodings of tags and sizes in this format are
    those of 64-bit varints (simple_hashing_sparse_dpf_pir_client.cc:195-203). *)
Fixpoint parse_fields (fuel : nat) (groups : list N) (b : bytes) (acc : bucket_proto) : bucket_proto :=
  match fuel with
  | O => acc
  | S fuel' =>
      match varint_decode 10 b with
      | None => acc
      | Some (tag, b') =>
          let continue_at := fun groups rest acc =>
            match rest with None => acc | Some b'' => parse_fields fuel' groups b'' acc end in
          let number := tag / 8 in
          if number =? 0 then acc
          else match tag mod 8 with
               | 0 => continue_at groups (match varint_decode 10 b' with Some (_, b'') => Some b'' | None => None end) acc
               | 1 => continue_at groups (skip_bytes 8 b') acc
               | 2 => match varint_decode 10 b' with
                      | None => acc
                      | Some (size, b'') =>
                          let data := firstn (N.to_nat size) b'' in
                          let added := match groups with
                                       | [] => if number =? 1 then (fst acc ++ [data], snd acc)
                                               else if number =? 2 then (fst acc, snd acc ++ [data]) else acc
                                       | _ => acc
                                       end in
                          match skip_bytes size b'' with None => acc | Some rest => parse_fields fuel' groups rest added end
                      end
               | 3 => if Nat.ltb (length groups) 100 then parse_fields fuel' (number :: groups) b' acc else acc
               | 4 => match groups with
                      | g :: groups' => if g =? number then parse_fields fuel' groups' b' acc else acc
                      | [] => acc
                      end
               | 5 => continue_at groups (skip_bytes 4 b') acc
               | _ => acc
               end
      end
  end.
(** Parsing a bucket, simple_hashing_sparse_dpf_pir_client.cc:195-203. *)
Definition parse_bucket (b : bytes) : bucket_proto := parse_fields (length b) [] b ([], []).

(** SimpleHashedDpfPirDatabase::Builder, simple_hashed_dpf_pir_database.h:69-74. *)
Record simple_builder := {
  sb_params : simple_params;
  sb_dense : option builder;
  sb_records : list (bytes * bytes);
  sb_built : bool
}.
(** Builder(), simple_hashed_dpf_pir_database.cc:46-47. *)
Definition simple_new : simple_builder :=
  {| sb_params := {| sp_hash := {| hf_family := 0; hf_seed := [] |}; sp_buckets := 0 |};
     sb_dense := None; sb_records := []; sb_built := false |}.
(** Clone, simple_hashed_dpf_pir_database.cc:49-59. *)
Definition simple_clone (b : simple_builder) : simple_builder :=
  {| sb_params := sb_params b; sb_dense := option_map clone (sb_dense b); sb_records := sb_records b; sb_built := sb_built b |}.
(** Clear, simple_hashed_dpf_pir_database.cc:61-69. *)
Definition simple_clear (b : simple_builder) : simple_builder :=
  {| sb_params := sb_params b; sb_dense := option_map clear (sb_dense b); sb_records := []; sb_built := false |}.
(** SetParams, simple_hashed_dpf_pir_database.cc:71-75. *)
Definition simple_set_params (b : simple_builder) (p : simple_params) : simple_builder :=
  {| sb_params := p; sb_dense := sb_dense b; sb_records := sb_records b; sb_built := sb_built b |}.
(** SetDenseDatabaseBuilder, simple_hashed_dpf_pir_database.cc:77-85. *)
Definition simple_set_dense_builder (b : simple_builder) (d : option builder) : simple_builder :=
  {| sb_params := sb_params b; sb_dense := option_map clear d; sb_records := sb_records b; sb_built := sb_built b |}.
(** Insert, simple_hashed_dpf_pir_database.cc:87-91. *)
Definition simple_add (b : simple_builder) (kv : bytes * bytes) : simple_builder :=
  {| sb_params := sb_params b; sb_dense := sb_dense b; sb_records := sb_records b ++ [kv]; sb_built := sb_built b |}.

(** SimpleHashedDpfPirDatabase, simple_hashed_dpf_pir_database.h:92-98. *)
Record simple_db := { sd_dense : db; sd_size : Z; sd_bits : Z }.

(** The loop that distributes the records, simple_hashed_dpf_pir_database.cc:120-127. *)
Definition simple_distribute (f : hash_function) (num_buckets : Z) (records : list (bytes * bytes))
    (protos : list bucket_proto) : res (list bucket_proto) :=
  foldM (fun protos (kv : bytes * bytes) =>
           _ <- check (negb (Nat.eqb (length (fst kv)) 0)) INVALID_ARGUMENT ;;
           i <- f (fst kv) num_buckets ;;
           proto <- atz_or_ub protos i ;;
           Ok (set_nth protos (Z.to_nat i) (fst proto ++ [fst kv], snd proto ++ [snd kv]))) records protos.
(** Build, simple_hashed_dpf_pir_database.cc:93-151.  Serialization fails for messages of 2 GiB or
    more. *)
Definition simple_build_db (a : alloc) (b : simple_builder) : res simple_db :=
  let num_buckets := to_int32 (sp_buckets (sb_params b)) in
  let num_records := to_int32 (Z.of_nat (length (sb_records b))) in
  _ <- check (negb (num_buckets <=? 0)%Z) INVALID_ARGUMENT ;;
  family <- hash_family_from_config sha256 (sp_hash (sb_params b)) ;;
  functions <- create_hash_functions family 1 ;;
  f <- at_or_ub functions 0 ;;
  protos <- simple_distribute f num_buckets (sb_records b) (repeat ([], []) (Z.to_nat num_buckets)) ;;
  dense <- foldM (fun d proto =>
             _ <- check (N.of_nat (length (serialize_bucket proto)) <? 2 ^ 31) INTERNAL ;;
             Ok (insert d (serialize_bucket proto))) protos (or_new (sb_dense b)) ;;
  dense_db <- fst (build a dense) ;;
  Ok {| sd_dense := dense_db; sd_size := num_records; sd_bits := num_buckets |}.
(** The result of Build, simple_hashed_dpf_pir_database.cc:93-151. *)
Definition simple_build (a : alloc) (b : simple_builder) : res simple_db :=
  if sb_built b then Err FAILED_PRECONDITION else simple_build_db a b.
(** The builder after Build, simple_hashed_dpf_pir_database.cc:93-151: as [cuckoo_after_build];
    records whose strings have been moved are left if a later key is empty. *)
Definition simple_after_build (lo : simple_builder) (b : simple_builder) : simple_builder :=
  if sb_built b then b
  else {| sb_params := sb_params b; sb_dense := sb_dense lo; sb_records := sb_records lo; sb_built := true |}.

(** * Servers *)

(** The fingerprint of a seed, e.g. cuckoo_hashing_sparse_dpf_pir_server.cc:127-130. *)
Definition fingerprint (seed : bytes) : res Z := sha256_hash_function sha256 [] seed 2147483647%Z.
(** Conversion of an int to uint32_t (cuckoo_hashing_sparse_dpf_pir_client.cc:149-164). *)
Definition to_uint32 (x : Z) : N := Z.to_N (x mod 4294967296).

Variable aes : N -> N -> N.
Variable F : fops.
(** static_cast<int>(std::ceil(std::log2(n))). *)
Variable clog : Z -> Z.

(** GenerateParams, cuckoo_hashing_sparse_dpf_pir_server.cc:50-75; [scale n] is the conversion of
    `kBucketsPerElement * n` to int64_t and [seed] the result of RAND_bytes. *)
Definition cuckoo_generate_params (scale : Z -> Z) (seed : bytes) (config : pir_config) : res cuckoo_params :=
  match config with
  | CfgCuckoo family n =>
      _ <- check (negb (n <=? 0)%Z) INVALID_ARGUMENT ;;
      _ <- check (negb (family =? 0)%Z) INVALID_ARGUMENT ;;
      Ok {| cp_hash := {| hf_family := family; hf_seed := seed |}; cp_functions := 3; cp_buckets := scale n |}
  | _ => Err INVALID_ARGUMENT
  end.
(** GenerateParams, simple_hashing_sparse_dpf_pir_server.cc:48-72. *)
Definition simple_generate_params (seed : bytes) (config : pir_config) : res simple_params :=
  match config with
  | CfgSimple family n =>
      _ <- check (negb (n <=? 0)%Z) INVALID_ARGUMENT ;;
      _ <- check (negb (family =? 0)%Z) INVALID_ARGUMENT ;;
      Ok {| sp_hash := {| hf_family := family; hf_seed := seed |}; sp_buckets := n |}
  | _ => Err INVALID_ARGUMENT
  end.

(** The servers: parameters, DPF, database and fingerprint
    (cuckoo_hashing_sparse_dpf_pir_server.h:119-122 and simple_hashing_sparse_dpf_pir_server.h:121-124). *)
Record cuckoo_server := { cs_params : cuckoo_params; cs_dpf : dpf; cs_db : cuckoo_db; cs_fingerprint : Z }.
(** SimpleHashingSparseDpfPirServer, simple_hashing_sparse_dpf_pir_server.h:121-124. *)
Record simple_server := { ss_params : simple_params; ss_dpf : dpf; ss_db : simple_db; ss_fingerprint : Z }.
(** CreatePlain, cuckoo_hashing_sparse_dpf_pir_server.cc:96-139; [None] is a null database.  The DPF
    parameters are those of dense PIR. *)
Definition cuckoo_create_plain (p : cuckoo_params) (database : option cuckoo_db) : res cuckoo_server :=
  _ <- check (negb (cp_buckets p <=? 0)%Z) INVALID_ARGUMENT ;;
  _ <- check (negb (cp_functions p <=? 0)%Z) INVALID_ARGUMENT ;;
  _ <- check (negb (hf_family (cp_hash p) =? 0)%Z) INVALID_ARGUMENT ;;
  database <- match database with Some d => Ok d | None => Err INVALID_ARGUMENT end ;;
  _ <- check (Z.of_nat (cd_bits database) =? cp_buckets p)%Z INVALID_ARGUMENT ;;
  d <- create_incremental F (dense_params clog (cp_buckets p)) ;;
  fp <- fingerprint (hf_seed (cp_hash p)) ;;
  Ok {| cs_params := p; cs_dpf := d; cs_db := database; cs_fingerprint := fp |}.
(** CreatePlain, simple_hashing_sparse_dpf_pir_server.cc:93-133. *)
Definition simple_create_plain (p : simple_params) (database : option simple_db) : res simple_server :=
  _ <- check (negb (sp_buckets p <=? 0)%Z) INVALID_ARGUMENT ;;
  _ <- check (negb (hf_family (sp_hash p) =? 0)%Z) INVALID_ARGUMENT ;;
  database <- match database with Some d => Ok d | None => Err INVALID_ARGUMENT end ;;
  _ <- check (sd_bits database =? sp_buckets p)%Z INVALID_ARGUMENT ;;
  d <- create_incremental F (dense_params clog (sp_buckets p)) ;;
  fp <- fingerprint (hf_seed (sp_hash p)) ;;
  Ok {| ss_params := p; ss_dpf := d; ss_db := database; ss_fingerprint := fp |}.

(** The checks and the evaluation shared by both HandlePlainRequest functions,
    cuckoo_hashing_sparse_dpf_pir_server.cc:144-173 and simple_hashing_sparse_dpf_pir_server.cc:138-167. *)
Definition sparse_selections (d : dpf) (server_fingerprint : Z) (req : request) : res (list (list N)) :=
  match req with
  | RqPlain plain =>
      _ <- check (negb (Nat.eqb (length (pq_keys plain)) 0)) INVALID_ARGUMENT ;;
      _ <- check (negb (negb (pq_fingerprint plain =? 0) &&
                        negb (pq_fingerprint plain =? to_uint32 server_fingerprint))) INVALID_ARGUMENT ;;
      mapM (dense_expand aes d) (pq_keys plain)
  | _ => Err INVALID_ARGUMENT
  end.
(** HandlePlainRequest, cuckoo_hashing_sparse_dpf_pir_server.cc:142-187. *)
Definition cuckoo_handle_plain (t : target) (s : cuckoo_server) (req : request) : res response :=
  selections <- sparse_selections (cs_dpf s) (cs_fingerprint s) req ;;
  products <- cuckoo_inner_product t (cs_db s) selections ;;
  Ok (Some (flat_map (fun kv : bytes * bytes => [fst kv; snd kv]) products)).
(** HandlePlainRequest, simple_hashing_sparse_dpf_pir_server.cc:136-179. *)
Definition simple_handle_plain (t : target) (s : simple_server) (req : request) : res response :=
  selections <- sparse_selections (ss_dpf s) (ss_fingerprint s) req ;;
  products <- inner_product_with t (sd_dense (ss_db s)) selections ;;
  Ok (Some products).

(** * Clients *)

(** CuckooHashingSparseDpfPirClient and SimpleHashingSparseDpfPirClient; num_buckets_ is an int
    (cuckoo_hashing_sparse_dpf_pir_client.h:79-82 and simple_hashing_sparse_dpf_pir_client.h:79-82). *)
Record cuckoo_client := { cc_dense : dense_client; cc_functions : list hash_function; cc_buckets : Z; cc_fingerprint : Z }.
(** SimpleHashingSparseDpfPirClient, simple_hashing_sparse_dpf_pir_client.h:79-82. *)
Record simple_client := { sc_dense : dense_client; sc_function : hash_function; sc_buckets : Z; sc_fingerprint : Z }.
(** Create, cuckoo_hashing_sparse_dpf_pir_client.cc:79-131. *)
Definition cuckoo_client_create (params : public_params) (encrypter_set : bool) : res cuckoo_client :=
  _ <- check encrypter_set INVALID_ARGUMENT ;;
  match params with
  | PpCuckoo p =>
      _ <- check (negb (cp_buckets p <=? 0)%Z) INVALID_ARGUMENT ;;
      _ <- check (negb (cp_functions p <=? 0)%Z) INVALID_ARGUMENT ;;
      family <- hash_family_from_config sha256 (cp_hash p) ;;
      fp <- fingerprint (hf_seed (cp_hash p)) ;;
      functions <- create_hash_functions family (cp_functions p) ;;
      dense <- dense_client_create F clog (CfgDense (cp_buckets p)) true ;;
      Ok {| cc_dense := dense; cc_functions := functions; cc_buckets := to_int32 (cp_buckets p); cc_fingerprint := fp |}
  | _ => Err INVALID_ARGUMENT
  end.
(** Create, simple_hashing_sparse_dpf_pir_client.cc:80-126. *)
Definition simple_client_create (params : public_params) (encrypter_set : bool) : res simple_client :=
  _ <- check encrypter_set INVALID_ARGUMENT ;;
  match params with
  | PpSimple p =>
      _ <- check (negb (sp_buckets p <=? 0)%Z) INVALID_ARGUMENT ;;
      family <- hash_family_from_config sha256 (sp_hash p) ;;
      fp <- fingerprint (hf_seed (sp_hash p)) ;;
      functions <- create_hash_functions family 1 ;;
      f <- match rev functions with f :: _ => Ok f | [] => UB end ;;
      dense <- dense_client_create F clog (CfgDense (sp_buckets p)) true ;;
      Ok {| sc_dense := dense; sc_function := f; sc_buckets := to_int32 (sp_buckets p); sc_fingerprint := fp |}
  | _ => Err INVALID_ARGUMENT
  end.

(** The modification of the dense requests, cuckoo_hashing_sparse_dpf_pir_client.cc:149-164 and
    simple_hashing_sparse_dpf_pir_client.cc:142-157.  mutable_plain_request() creates the plain request
    of the helper if necessary. *)
Definition with_fingerprint (fp : Z) (p : plain_request) : plain_request :=
  {| pq_keys := pq_keys p; pq_fingerprint := to_uint32 fp |}.
(** On both requests, cuckoo_hashing_sparse_dpf_pir_client.cc:149-164. *)
Definition add_fingerprint (fp : Z) (l : plain_request) (h : helper_request) : plain_request * helper_request :=
  (with_fingerprint fp l,
   {| hq_plain := Some (with_fingerprint fp (match hq_plain h with Some p => p | None => default_plain end));
      hq_seed := hq_seed h |}).
(** The seed in the state of the dense client, cuckoo_hashing_sparse_dpf_pir_client.cc:149-164. *)
Definition dense_seed (s : client_state) : bytes := match s with CsDense seed => seed | _ => [] end.

(** CreatePlainRequests, cuckoo_hashing_sparse_dpf_pir_client.cc:132-165. *)
Definition cuckoo_create_plain_requests (c : cuckoo_client) (queries : list bytes) (seeds : nat -> N * N) (pad_seed : bytes)
  : res (plain_request * helper_request * client_state) :=
  indices <- mapM (fun q => mapM (fun f : hash_function => f q (cc_buckets c)) (cc_functions c)) queries ;;
  '(l, h, state) <- dense_create_plain_requests aes (cc_dense c) (concat indices) seeds pad_seed ;;
  let '(l, h) := add_fingerprint (cc_fingerprint c) l h in
  Ok (l, h, CsCuckoo (dense_seed state) queries).
(** CreatePlainRequests, simple_hashing_sparse_dpf_pir_client.cc:127-158. *)
Definition simple_create_plain_requests (c : simple_client) (queries : list bytes) (seeds : nat -> N * N) (pad_seed : bytes)
  : res (plain_request * helper_request * client_state) :=
  indices <- mapM (fun q => sc_function c q (sc_buckets c)) queries ;;
  '(l, h, state) <- dense_create_plain_requests aes (sc_dense c) indices seeds pad_seed ;;
  let '(l, h) := add_fingerprint (sc_fingerprint c) l h in
  Ok (l, h, CsSimple (dense_seed state) queries).

(** IsPrefixPaddedWithZeros, cuckoo_hashing_sparse_dpf_pir_client.cc:45-55. *)
Fixpoint is_prefix_padded (input prefix : bytes) : bool :=
  match input, prefix with
  | [], _ => true
  | x :: input', [] => (x =? 0) && is_prefix_padded input' []
  | x :: input', y :: prefix' => (x =? y) && is_prefix_padded input' prefix'
  end.

(** The inner loop of HandleResponse for query [i], cuckoo_hashing_sparse_dpf_pir_client.cc:205-215. *)
Definition cuckoo_answer (raw : list bytes) (num_functions i : nat) (query : bytes) : res (option bytes) :=
  foldM (fun (result : option bytes) j =>
           match result with
           | Some v => Ok (Some v)
           | None =>
               let raw_index := (2 * (num_functions * i + j))%nat in
               key <- at_or_ub raw raw_index ;;
               if is_prefix_padded key query
               then value <- at_or_ub raw (raw_index + 1) ;; Ok (Some value)
               else Ok None
           end) (seq 0 num_functions) None.
(** HandleResponse, cuckoo_hashing_sparse_dpf_pir_client.cc:167-218; a result is [None] for
    absl::nullopt. *)
Definition cuckoo_handle_response (c : cuckoo_client) (resp : response) (state : client_state) : res (list (option bytes)) :=
  match resp with
  | None => Err INVALID_ARGUMENT
  | Some l =>
      '(seed, queries) <- match state with CsCuckoo seed queries => Ok (seed, queries) | _ => Err INVALID_ARGUMENT end ;;
      let k := length (cc_functions c) in
      _ <- check (Nat.eqb (length queries * k * 2) (length l)) INVALID_ARGUMENT ;;
      raw <- dense_handle_response aes (Some l) (CsDense seed) ;;
      if Nat.eqb k 0 then UB
      else mapM (fun i => q <- at_or_ub queries i ;; cuckoo_answer raw k i q)
                (seq 0 (Nat.div (Nat.div (length raw) k) 2))
  end.

(** The loop over the keys of a bucket, simple_hashing_sparse_dpf_pir_client.cc:205-210. *)
Fixpoint simple_search (keys : list bytes) (j : nat) (values : list bytes) (query : bytes) : res (option bytes) :=
  match keys with
  | [] => Ok None
  | key :: keys' =>
      match compare_bytes key query with
      | Eq => value <- at_or_ub values j ;; Ok (Some value)
      | _ => simple_search keys' (S j) values query
      end
  end.
(** HandleResponse, simple_hashing_sparse_dpf_pir_client.cc:160-213. *)
Definition simple_handle_response (resp : response) (state : client_state) : res (list (option bytes)) :=
  match resp with
  | None => Err INVALID_ARGUMENT
  | Some l =>
      '(seed, queries) <- match state with CsSimple seed queries => Ok (seed, queries) | _ => Err INVALID_ARGUMENT end ;;
      _ <- check (Nat.eqb (length queries) (length l)) INVALID_ARGUMENT ;;
      raw <- dense_handle_response aes (Some l) (CsDense seed) ;;
      mapM (fun ir : nat * bytes =>
              query <- at_or_ub queries (fst ir) ;;
              let '(keys, values) := parse_bucket (snd ir) in
              simple_search keys 0 values query) (combine (seq 0 (length raw)) raw)
  end.
End Sparse.
