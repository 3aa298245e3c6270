(** Model of the PIR clients and servers on a machine where calls to OpenSSL can fail.  The functions are those of PirModel.v and SparseModel.v with the
    calls to OpenSSL in the order of the code.  SHA-256 and AES_ctr128_encrypt cannot fail: the latter returns nothing, the return values of the former are
    not looked at (pir/hashing/sha256_hash_family.cc:32-63) and BoringSSL defines them to be 1. *)
From Coq Require Import List NArith ZArith Bool.
From Verif Require Import Base ListUtil ValueTypesModel DpfModel FaultModel PirDbModel PirModel HashModel SparseModel.
Import ListNotations.
Open Scope N_scope.

Section Library.
(** AES-128 encryption of one block under a key. *)
Variable aes : N -> N -> N.
(** Whether the n-th call to OpenSSL succeeds: 1 stands for success, also for AES_set_encrypt_key, where the code compares with 0. *)
Variable status : nat -> Z.
(** The 128 bits that the n-th call writes, if it is a successful call of RAND_bytes. *)
Variable random : nat -> N.

(** Create, aes_128_ctr_seeded_prng.cc:60-91: AES_set_encrypt_key after the checks. *)
Definition prng_create_f (seed : bytes) : io prng :=
  p <~ lift (prng_create seed) ;;
  _ <~ (fun n => (check (status n =? 1)%Z INTERNAL, S n)) ;;
  lift (Ok p).

Section Server.
(** HelperRequest::ParseFromString. *)
Variable parse : bytes -> option helper_request.
(** HandlePlainRequest of the derived class. *)
Variable handle_plain : request -> io response.

(** The effect of the callback on `leader_response`, dpf_pir_server.cc:99-104; as [while_waiting]. *)
Definition while_waiting_f (has_run : bool) (plain : request) : io (res response) :=
  if has_run
  then fun n => match handle_plain plain n with
                | (Crash, n') => (Crash, n')
                | (UB, n') => (UB, n')
                | (r, n') => (Ok r, n')
                end
  else lift (Ok (Err INTERNAL)).

(** HandleLeaderRequest, dpf_pir_server.cc:67-145.  The sender is not part of the machine: what it calls is not counted. *)
Definition handle_leader_request_f (r : role) (req : request) : io response :=
  match req with
  | RqLeader plain encrypted =>
      plain <~ lift (match plain with Some p => Ok p | None => Err INVALID_ARGUMENT end) ;;
      encrypted <~ lift (match encrypted with Some e => Ok e | None => Err INVALID_ARGUMENT end) ;;
      match r with
      | Leader sender =>
          let '(has_run, helper_result) := sender (RqHelper encrypted) in
          leader_result <~ while_waiting_f has_run (RqPlain plain) ;;
          lift (
          helper_response <- helper_result ;;
          _ <- check has_run FAILED_PRECONDITION ;;
          leader_response <- leader_result ;;
          _ <- check (Nat.eqb (length (masked helper_response)) (length (masked leader_response))) INTERNAL ;;
          match leader_response with
          | None => Ok None
          | Some l => l' <- combine_responses (masked helper_response) l ;; Ok (Some l')
          end)
      | _ => lift (Err INTERNAL)
      end
  | _ => lift (Err INVALID_ARGUMENT)
  end.

(** HandleHelperRequest, dpf_pir_server.cc:147-193. *)
Definition handle_helper_request_f (r : role) (req : request) : io response :=
  match req with
  | RqHelper encrypted =>
      match r with
      | Helper decrypt context =>
          decrypted <~ lift (decrypt encrypted context) ;;
          inner <~ lift (match parse decrypted with Some i => Ok i | None => Err INVALID_ARGUMENT end) ;;
          let plain := match hq_plain inner with Some p => p | None => default_plain end in
          response <~ handle_plain (RqPlain plain) ;;
          p <~ prng_create_f (hq_seed inner) ;;
          lift (match response with
                | None => Ok None
                | Some l => l' <- mask_all aes p l ;; Ok (Some l')
                end)
      | _ => lift (Err INTERNAL)
      end
  | _ => lift (Err INVALID_ARGUMENT)
  end.

(** HandleRequest, dpf_pir_server.cc:55-65. *)
Definition handle_request_f (r : role) (req : request) : io response :=
  match r with
  | Plain => handle_plain req
  | Leader _ => handle_leader_request_f r req
  | Helper _ _ => handle_helper_request_f r req
  end.
End Server.

(** The expansion of one key, dense_dpf_pir_server.cc:113-116. *)
Definition dense_expand_f (d : dpf) (key : dkey) : io (list N) :=
  ctx <~ lift (create_evaluation_context d key) ;;
  values <~ (fun n => let '((r, _), n') := evaluate_next_f aes status d block_type [] ctx n in (r, n')) ;;
  lift (Ok (map num_of values)).
(** HandlePlainRequest, dense_dpf_pir_server.cc:92-127. *)
Definition dense_handle_plain_f (t : target) (s : dense_server) (req : request) : io response :=
  match req with
  | RqPlain plain =>
      _ <~ lift (check (negb (Nat.eqb (length (pq_keys plain)) 0)) INVALID_ARGUMENT) ;;
      selections <~ map_f (dense_expand_f (ds_dpf s)) (pq_keys plain) ;;
      lift (inner_products <- inner_product_with t (ds_db s) selections ;;
            Ok (match inner_products with [] => None | _ => Some inner_products end))
  | _ => lift (Err INVALID_ARGUMENT)
  end.
(** The checks and the evaluation shared by both HandlePlainRequest functions of sparse PIR,
    cuckoo_hashing_sparse_dpf_pir_server.cc:144-173 and simple_hashing_sparse_dpf_pir_server.cc:138-167. *)
Definition sparse_selections_f (d : dpf) (server_fingerprint : Z) (req : request) : io (list (list N)) :=
  match req with
  | RqPlain plain =>
      _ <~ lift (check (negb (Nat.eqb (length (pq_keys plain)) 0)) INVALID_ARGUMENT) ;;
      _ <~ lift (check (negb (negb (pq_fingerprint plain =? 0) &&
                        negb (pq_fingerprint plain =? to_uint32 server_fingerprint))) INVALID_ARGUMENT) ;;
      map_f (dense_expand_f d) (pq_keys plain)
  | _ => lift (Err INVALID_ARGUMENT)
  end.
(** HandlePlainRequest, cuckoo_hashing_sparse_dpf_pir_server.cc:142-187. *)
Definition cuckoo_handle_plain_f (t : target) (s : cuckoo_server) (req : request) : io response :=
  selections <~ sparse_selections_f (cs_dpf s) (cs_fingerprint s) req ;;
  lift (products <- cuckoo_inner_product t (cs_db s) selections ;;
        Ok (Some (flat_map (fun kv : bytes * bytes => [fst kv; snd kv]) products))).
(** HandlePlainRequest, simple_hashing_sparse_dpf_pir_server.cc:136-179. *)
Definition simple_handle_plain_f (t : target) (s : simple_server) (req : request) : io response :=
  selections <~ sparse_selections_f (ss_dpf s) (ss_fingerprint s) req ;;
  lift (products <- inner_product_with t (sd_dense (ss_db s)) selections ;; Ok (Some products)).

(** The keys for one query, dense_dpf_pir_client.cc:95-102. *)
Definition dense_keys_f (d : dpf) (query : Z) : io (dkey * dkey) :=
  let alpha := Z.to_N (Z.quot query 128) in
  let beta := VNum (w128 (N.shiftl 1 (Z.to_N (Z.rem query 128)))) in
  generate_keys_f aes status random (register_value_type block_type d) alpha [to_value block_type beta].
(** CreatePlainRequests, dense_dpf_pir_client.cc:77-115. *)
Definition dense_create_plain_requests_f (c : dense_client) (queries : list Z)
  : io (plain_request * helper_request * client_state) :=
  _ <~ lift (iterM (fun q =>
         _ <- check (negb (q <? 0)%Z) INVALID_ARGUMENT ;;
         check (negb (dc_size c <=? q)%Z) INVALID_ARGUMENT) queries) ;;
  keys <~ map_f (dense_keys_f (dc_dpf c)) queries ;;
  pad_seed <~ generate_seed_f status random ;;
  let helper_plain := match keys with
                      | [] => None
                      | _ => Some {| pq_keys := map snd keys; pq_fingerprint := 0 |} end in
  lift (Ok ({| pq_keys := map fst keys; pq_fingerprint := 0 |},
            {| hq_plain := helper_plain; hq_seed := pad_seed |},
            CsDense pad_seed)).
(** CreatePlainRequests, cuckoo_hashing_sparse_dpf_pir_client.cc:132-165. *)
Definition cuckoo_create_plain_requests_f (c : cuckoo_client) (queries : list bytes)
  : io (plain_request * helper_request * client_state) :=
  indices <~ lift (mapM (fun q => mapM (fun f : hash_function => f q (cc_buckets c)) (cc_functions c)) queries) ;;
  '(l, h, state) <~ dense_create_plain_requests_f (cc_dense c) (concat indices) ;;
  let '(l, h) := add_fingerprint (cc_fingerprint c) l h in
  lift (Ok (l, h, CsCuckoo (dense_seed state) queries)).
(** CreatePlainRequests, simple_hashing_sparse_dpf_pir_client.cc:127-158. *)
Definition simple_create_plain_requests_f (c : simple_client) (queries : list bytes)
  : io (plain_request * helper_request * client_state) :=
  indices <~ lift (mapM (fun q => sc_function c q (sc_buckets c)) queries) ;;
  '(l, h, state) <~ dense_create_plain_requests_f (sc_dense c) indices ;;
  let '(l, h) := add_fingerprint (sc_fingerprint c) l h in
  lift (Ok (l, h, CsSimple (dense_seed state) queries)).
(** CreateRequest, dpf_pir_client.h:64-82; as [create_request]. *)
Definition create_request_f (serialize : helper_request -> bytes) (encrypt : encrypter) (context : bytes)
    (plain_requests : io (plain_request * helper_request * client_state)) : io (request * client_state) :=
  '(l, h, state) <~ plain_requests ;;
  lift (r <- to_leader_request serialize encrypt context l h ;; Ok (r, state)).

(** HandleResponse, dense_dpf_pir_client.cc:117-154. *)
Definition dense_handle_response_f (resp : response) (state : client_state) : io (list bytes) :=
  match resp with
  | None => lift (Err INVALID_ARGUMENT)
  | Some l =>
      seed <~ lift (match state with CsDense seed => Ok seed | _ => Err INVALID_ARGUMENT end) ;;
      _ <~ lift (check (negb (Nat.eqb (length l) 0)) INVALID_ARGUMENT) ;;
      _ <~ lift (check (negb (Nat.eqb (length seed) 0)) INVALID_ARGUMENT) ;;
      p <~ prng_create_f seed ;;
      lift (mask_all aes p l)
  end.
(** HandleResponse, cuckoo_hashing_sparse_dpf_pir_client.cc:167-218. *)
Definition cuckoo_handle_response_f (c : cuckoo_client) (resp : response) (state : client_state) : io (list (option bytes)) :=
  match resp with
  | None => lift (Err INVALID_ARGUMENT)
  | Some l =>
      '(seed, queries) <~ lift (match state with CsCuckoo seed queries => Ok (seed, queries) | _ => Err INVALID_ARGUMENT end) ;;
      let k := length (cc_functions c) in
      _ <~ lift (check (Nat.eqb (length queries * k * 2) (length l)) INVALID_ARGUMENT) ;;
      raw <~ dense_handle_response_f (Some l) (CsDense seed) ;;
      lift (if Nat.eqb k 0 then UB
            else mapM (fun i => q <- at_or_ub queries i ;; cuckoo_answer raw k i q)
                      (seq 0 (Nat.div (Nat.div (length raw) k) 2)))
  end.
(** HandleResponse, simple_hashing_sparse_dpf_pir_client.cc:160-213. *)
Definition simple_handle_response_f (resp : response) (state : client_state) : io (list (option bytes)) :=
  match resp with
  | None => lift (Err INVALID_ARGUMENT)
  | Some l =>
      '(seed, queries) <~ lift (match state with CsSimple seed queries => Ok (seed, queries) | _ => Err INVALID_ARGUMENT end) ;;
      _ <~ lift (check (Nat.eqb (length queries) (length l)) INVALID_ARGUMENT) ;;
      raw <~ dense_handle_response_f (Some l) (CsDense seed) ;;
      lift (mapM (fun ir : nat * bytes =>
              query <- at_or_ub queries (fst ir) ;;
              let '(keys, values) := parse_bucket (snd ir) in
              simple_search keys 0 values query) (combine (seq 0 (length raw)) raw))
  end.

Section Creation.
Variable sha256 : bytes -> bytes.
Variable F : fops.
(** static_cast<int>(std::ceil(std::log2(n))). *)
Variable clog : Z -> Z.

(** DenseDpfPirServer::CreatePlain, dense_dpf_pir_server.cc:58-85. *)
Definition dense_create_plain_f (config : pir_config) (database : option db) : io dense_server :=
  match config with
  | CfgDense n =>
      database <~ lift (match database with Some d => Ok d | None => Err INVALID_ARGUMENT end) ;;
      _ <~ lift (check (0 <? n)%Z INVALID_ARGUMENT) ;;
      _ <~ lift (check (Z.of_nat (db_size database) =? n)%Z INVALID_ARGUMENT) ;;
      d <~ create_incremental_f status F (dense_params clog n) ;;
      lift (Ok {| ds_dpf := d; ds_db := database |})
  | _ => lift (Err INVALID_ARGUMENT)
  end.
(** CreatePlain, cuckoo_hashing_sparse_dpf_pir_server.cc:96-139. *)
Definition cuckoo_create_plain_f (p : cuckoo_params) (database : option cuckoo_db) : io cuckoo_server :=
  _ <~ lift (check (negb (cp_buckets p <=? 0)%Z) INVALID_ARGUMENT) ;;
  _ <~ lift (check (negb (cp_functions p <=? 0)%Z) INVALID_ARGUMENT) ;;
  _ <~ lift (check (negb (hf_family (cp_hash p) =? 0)%Z) INVALID_ARGUMENT) ;;
  database <~ lift (match database with Some d => Ok d | None => Err INVALID_ARGUMENT end) ;;
  _ <~ lift (check (Z.of_nat (cd_bits database) =? cp_buckets p)%Z INVALID_ARGUMENT) ;;
  d <~ create_incremental_f status F (dense_params clog (cp_buckets p)) ;;
  fp <~ lift (fingerprint sha256 (hf_seed (cp_hash p))) ;;
  lift (Ok {| cs_params := p; cs_dpf := d; cs_db := database; cs_fingerprint := fp |}).
(** CreatePlain, simple_hashing_sparse_dpf_pir_server.cc:93-133. *)
Definition simple_create_plain_f (p : simple_params) (database : option simple_db) : io simple_server :=
  _ <~ lift (check (negb (sp_buckets p <=? 0)%Z) INVALID_ARGUMENT) ;;
  _ <~ lift (check (negb (hf_family (sp_hash p) =? 0)%Z) INVALID_ARGUMENT) ;;
  database <~ lift (match database with Some d => Ok d | None => Err INVALID_ARGUMENT end) ;;
  _ <~ lift (check (sd_bits database =? sp_buckets p)%Z INVALID_ARGUMENT) ;;
  d <~ create_incremental_f status F (dense_params clog (sp_buckets p)) ;;
  fp <~ lift (fingerprint sha256 (hf_seed (sp_hash p))) ;;
  lift (Ok {| ss_params := p; ss_dpf := d; ss_db := database; ss_fingerprint := fp |}).

(** DenseDpfPirClient::Create, dense_dpf_pir_client.cc:42-75. *)
Definition dense_client_create_f (config : pir_config) (encrypter_set : bool) : io dense_client :=
  match config with
  | CfgDense n =>
      _ <~ lift (check (0 <? n)%Z INVALID_ARGUMENT) ;;
      _ <~ lift (check encrypter_set INVALID_ARGUMENT) ;;
      d <~ create_incremental_f status F (dense_params clog n) ;;
      lift (Ok {| dc_dpf := d; dc_size := to_int32 n |})
  | _ => lift (Err INVALID_ARGUMENT)
  end.
(** Create, cuckoo_hashing_sparse_dpf_pir_client.cc:79-131. *)
Definition cuckoo_client_create_f (params : public_params) (encrypter_set : bool) : io cuckoo_client :=
  _ <~ lift (check encrypter_set INVALID_ARGUMENT) ;;
  match params with
  | PpCuckoo p =>
      _ <~ lift (check (negb (cp_buckets p <=? 0)%Z) INVALID_ARGUMENT) ;;
      _ <~ lift (check (negb (cp_functions p <=? 0)%Z) INVALID_ARGUMENT) ;;
      family <~ lift (hash_family_from_config sha256 (cp_hash p)) ;;
      fp <~ lift (fingerprint sha256 (hf_seed (cp_hash p))) ;;
      functions <~ lift (create_hash_functions family (cp_functions p)) ;;
      dense <~ dense_client_create_f (CfgDense (cp_buckets p)) true ;;
      lift (Ok {| cc_dense := dense; cc_functions := functions; cc_buckets := to_int32 (cp_buckets p); cc_fingerprint := fp |})
  | _ => lift (Err INVALID_ARGUMENT)
  end.
(** Create, simple_hashing_sparse_dpf_pir_client.cc:80-126. *)
Definition simple_client_create_f (params : public_params) (encrypter_set : bool) : io simple_client :=
  _ <~ lift (check encrypter_set INVALID_ARGUMENT) ;;
  match params with
  | PpSimple p =>
      _ <~ lift (check (negb (sp_buckets p <=? 0)%Z) INVALID_ARGUMENT) ;;
      family <~ lift (hash_family_from_config sha256 (sp_hash p)) ;;
      fp <~ lift (fingerprint sha256 (hf_seed (sp_hash p))) ;;
      functions <~ lift (create_hash_functions family 1) ;;
      f <~ lift (match rev functions with f :: _ => Ok f | [] => UB end) ;;
      dense <~ dense_client_create_f (CfgDense (sp_buckets p)) true ;;
      lift (Ok {| sc_dense := dense; sc_function := f; sc_buckets := to_int32 (sp_buckets p); sc_fingerprint := fp |})
  | _ => lift (Err INVALID_ARGUMENT)
  end.

(** GenerateParams, cuckoo_hashing_sparse_dpf_pir_server.cc:50-75; as [cuckoo_generate_params], with the call of RAND_bytes after the checks. *)
Definition cuckoo_generate_params_f (scale : Z -> Z) (config : pir_config) : io cuckoo_params :=
  _ <~ lift (cuckoo_generate_params scale [] config) ;;
  seed <~ generate_seed_f status random ;;
  lift (cuckoo_generate_params scale seed config).
(** GenerateParams, simple_hashing_sparse_dpf_pir_server.cc:48-72. *)
Definition simple_generate_params_f (config : pir_config) : io simple_params :=
  _ <~ lift (simple_generate_params [] config) ;;
  seed <~ generate_seed_f status random ;;
  lift (simple_generate_params seed config).
End Creation.
End Library.
