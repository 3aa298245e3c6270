(** Model of the PIR protocol: the one-time-pad generator
    (pir/prng/aes_128_ctr_seeded_prng.{h,cc}), the request handling shared by all DPF-based
    servers and clients (pir/dpf_pir_server.{h,cc}, pir/dpf_pir_client.h), and the dense
    client and server (pir/dense_dpf_pir_{client,server}.{h,cc}).

    Serialisation, hybrid encryption and the callbacks of the caller are arguments. *)
From Coq Require Import List NArith ZArith QArith Bool.
From Verif Require Import Base ValueTypesModel DpfModel PirDbModel.
Import ListNotations.
Open Scope N_scope.

(** * One-time pads *)

(** Aes128CtrSeededPrng, aes_128_ctr_seeded_prng.h:95-103.  AES_set_encrypt_key does not fail for
    keys of 128 bits; the expanded key is represented by the key. *)
Record prng := { pr_key : bytes; pr_ivec : bytes; pr_ecount : bytes; pr_num : nat }.

(** CreateWithNonce, aes_128_ctr_seeded_prng.cc:66-91. *)
Definition prng_create_with_nonce (seed nonce : bytes) : res prng :=
  _ <- check (Nat.eqb (length seed) 16) INVALID_ARGUMENT ;;
  _ <- check (Nat.eqb (length seed) (length nonce)) INVALID_ARGUMENT ;;
  Ok {| pr_key := seed; pr_ivec := nonce; pr_ecount := repeat 0 16; pr_num := 0 |}.
(** Create, aes_128_ctr_seeded_prng.cc:60-64. *)
Definition prng_create (seed : bytes) : res prng := prng_create_with_nonce seed (repeat 0 16).

(** The counter increment of OpenSSL's CTR mode: the counter is big endian
    (aes_128_ctr_seeded_prng.cc:96-98). *)
Fixpoint inc_le (b : bytes) : bytes :=
  match b with
  | [] => []
  | x :: b' => if x =? 255 then 0 :: inc_le b' else (x + 1) :: b'
  end.
(** The increment of ivec, aes_128_ctr_seeded_prng.cc:96-98. *)
Definition ctr_inc (ivec : bytes) : bytes := rev (inc_le (rev ivec)).

Section Aes.
(** The block cipher: key and block as 128-bit numbers (little endian bytes). *)
Variable aes : N -> N -> N.

(** AES_encrypt on a block, aes_128_ctr_seeded_prng.cc:96-98. *)
Definition aes_block (key block : bytes) : bytes := le_encode 16 (aes (le_decode key) (le_decode block)).

(** AES_ctr128_encrypt on a buffer of [length] zero bytes (OpenSSL), as called in
    GetRandomBytes, aes_128_ctr_seeded_prng.cc:93-101. *)
Fixpoint random_bytes (length : nat) (p : prng) : res (bytes * prng) :=
  match length with
  | O => Ok ([], p)
  | S length' =>
      let p1 := if Nat.eqb (pr_num p) 0
                then {| pr_key := pr_key p; pr_ivec := ctr_inc (pr_ivec p);
                        pr_ecount := aes_block (pr_key p) (pr_ivec p); pr_num := 0 |}
                else p in
      b <- at_or_ub (pr_ecount p1) (pr_num p1) ;;
      let p2 := {| pr_key := pr_key p1; pr_ivec := pr_ivec p1; pr_ecount := pr_ecount p1;
                   pr_num := Nat.modulo (pr_num p1 + 1) 16 |} in
      '(bs, p3) <- random_bytes length' p2 ;;
      Ok (N.lxor 0 b :: bs, p3)
  end.

(** The loops that XOR the responses with the pads, dpf_pir_server.cc:183-191 and
    dense_dpf_pir_client.cc:146-152.  The pad has the length of the response, so the loop over
    the bytes is [bxor]. *)
Fixpoint mask_all (p : prng) (responses : list bytes) : res (list bytes) :=
  match responses with
  | [] => Ok []
  | r :: responses' =>
      '(pad, p') <- random_bytes (length r) p ;;
      rs <- mask_all p' responses' ;;
      Ok (bxor r pad :: rs)
  end.
End Aes.

(** * Messages (private_information_retrieval.proto) *)

(** DpfPirRequest.PlainRequest, private_information_retrieval.proto:128-134. *)
Record plain_request := { pq_keys : list dkey; pq_fingerprint : N }.
(** The default PlainRequest, private_information_retrieval.proto:128-134. *)
Definition default_plain : plain_request := {| pq_keys := []; pq_fingerprint := 0 |}.
(** DpfPirRequest.HelperRequest, private_information_retrieval.proto:150-153. *)
Record helper_request := { hq_plain : option plain_request; hq_seed : bytes }.
(** PirRequest: nothing set, DpfPirRequest without a wrapped request, or one of the three
    kinds (private_information_retrieval.proto:65-69 and 126-160). *)
Inductive request :=
| RqUnset
| RqDpfUnset
| RqPlain (p : plain_request)
| RqLeader (p : option plain_request) (encrypted : option bytes)
| RqHelper (encrypted : bytes).
(** PirResponse: [None] if no DpfPirResponse is set
    (private_information_retrieval.proto:73-77 and 183-185). *)
Definition response := option (list bytes).
(** masked_response of a response, private_information_retrieval.proto:183-185. *)
Definition masked (r : response) : list bytes := match r with Some l => l | None => [] end.
(** PirRequestClientState (private_information_retrieval.proto:45-53 and 163-179). *)
Inductive client_state :=
| CsUnset
| CsDense (seed : bytes)
| CsCuckoo (seed : bytes) (queries : list bytes)
| CsSimple (seed : bytes) (queries : list bytes).

(** * DpfPirServer *)

(** ForwardHelperRequestFn: for a request, whether the callback is run before the sender
    returns, and what it returns.  (The callback has no result; its only effect is to
    compute the leader's own response.) (dpf_pir_server.h:92-94). *)
Definition sender := request -> bool * res response.
(** DecryptHelperRequestFn: ciphertext and context info (dpf_pir_server.h:107-109). *)
Definition decrypter := bytes -> bytes -> res bytes.
(** role_storage_ and role_, dpf_pir_server.h:157-173. *)
Inductive role :=
| Plain
| Leader (s : sender)
| Helper (d : decrypter) (context : bytes).

(** MakeLeader and MakeHelper, dpf_pir_server.cc:35-53; [None] is a null function. *)
Definition make_leader (s : option sender) : res role :=
  match s with Some s => Ok (Leader s) | None => Err INVALID_ARGUMENT end.
(** MakeHelper, dpf_pir_server.cc:43-53. *)
Definition make_helper (d : option decrypter) (context : bytes) : res role :=
  match d with Some d => Ok (Helper d context) | None => Err INVALID_ARGUMENT end.

Section Server.
Variable aes : N -> N -> N.
(** HelperRequest::ParseFromString. *)
Variable parse : bytes -> option helper_request.
(** HandlePlainRequest of the derived class. *)
Variable handle_plain : request -> res response.

(** The combination of both responses, dpf_pir_server.cc:127-143. *)
Fixpoint combine_responses (helper leader : list bytes) : res (list bytes) :=
  match helper, leader with
  | h :: helper', l :: leader' =>
      _ <- check (Nat.eqb (length h) (length l)) INTERNAL ;;
      rest <- combine_responses helper' leader' ;;
      Ok (bxor l h :: rest)
  | _, _ => Ok leader
  end.

(** The effect of the callback on `leader_response`, dpf_pir_server.cc:99-104; before it is
    run, `leader_response` is a non-OK StatusOr (here INTERNAL; it is not looked at). *)
Definition while_waiting (has_run : bool) (plain : request) : res (res response) :=
  if has_run
  then match handle_plain plain with
       | Crash => Crash
       | UB => UB
       | r => Ok r
       end
  else Ok (Err INTERNAL).

(** HandleLeaderRequest, dpf_pir_server.cc:67-145. *)
Definition handle_leader_request (r : role) (req : request) : res response :=
  match req with
  | RqLeader plain encrypted =>
      plain <- match plain with Some p => Ok p | None => Err INVALID_ARGUMENT end ;;
      encrypted <- match encrypted with Some e => Ok e | None => Err INVALID_ARGUMENT end ;;
      match r with
      | Leader sender =>
          let '(has_run, helper_result) := sender (RqHelper encrypted) in
          leader_result <- while_waiting has_run (RqPlain plain) ;;
          helper_response <- helper_result ;;
          _ <- check has_run FAILED_PRECONDITION ;;
          leader_response <- leader_result ;;
          _ <- check (Nat.eqb (length (masked helper_response)) (length (masked leader_response))) INTERNAL ;;
          match leader_response with
          | None => Ok None
          | Some l => l' <- combine_responses (masked helper_response) l ;; Ok (Some l')
          end
      | _ => Err INTERNAL
      end
  | _ => Err INVALID_ARGUMENT
  end.

(** HandleHelperRequest, dpf_pir_server.cc:147-193. *)
Definition handle_helper_request (r : role) (req : request) : res response :=
  match req with
  | RqHelper encrypted =>
      match r with
      | Helper decrypt context =>
          decrypted <- decrypt encrypted context ;;
          inner <- match parse decrypted with Some i => Ok i | None => Err INVALID_ARGUMENT end ;;
          let plain := match hq_plain inner with Some p => p | None => default_plain end in
          response <- handle_plain (RqPlain plain) ;;
          p <- prng_create (hq_seed inner) ;;
          match response with
          | None => Ok None
          | Some l => l' <- mask_all aes p l ;; Ok (Some l')
          end
      | _ => Err INTERNAL
      end
  | _ => Err INVALID_ARGUMENT
  end.

(** HandleRequest, dpf_pir_server.cc:55-65. *)
Definition handle_request (r : role) (req : request) : res response :=
  match r with
  | Plain => handle_plain req
  | Leader _ => handle_leader_request r req
  | Helper _ _ => handle_helper_request r req
  end.
End Server.

(** * DpfPirClient *)

(** EncryptHelperRequestFn (dpf_pir_client.h:47-49). *)
Definition encrypter := bytes -> bytes -> res bytes.

(** PlainRequestsToLeaderRequest, dpf_pir_client.h:103-126. *)
Definition to_leader_request (serialize : helper_request -> bytes) (encrypt : encrypter) (context : bytes)
    (leader_request : plain_request) (helper_request : helper_request) : res request :=
  encrypted <- encrypt (serialize helper_request) context ;;
  Ok (RqLeader (Some leader_request) (Some encrypted)).

(** CreateRequest, dpf_pir_client.h:64-82. *)
Definition create_request (serialize : helper_request -> bytes) (encrypt : encrypter) (context : bytes)
    (plain_requests : res (plain_request * helper_request * client_state)) : res (request * client_state) :=
  '(l, h, state) <- plain_requests ;;
  r <- to_leader_request serialize encrypt context l h ;;
  Ok (r, state).

(** * Dense PIR *)

(** PirConfig (private_information_retrieval.proto:31-37 and 84-99). *)
Inductive pir_config :=
| CfgUnset
| CfgDense (num_elements : Z)
| CfgCuckoo (hash_family : Z) (num_elements : Z)
| CfgSimple (hash_family : Z) (num_buckets : Z).

Section Dense.
Variable aes : N -> N -> N.
Variable F : fops.
(** static_cast<int>(std::ceil(std::log2(n))). *)
Variable clog : Z -> Z.

(** XorWrapper<absl::uint128>, dense_dpf_pir_database.h:41-47 and dense_dpf_pir_server.cc:76-80. *)
Definition block_type : cty := TXor 128.
(** The DPF parameters, dense_dpf_pir_server.cc:76-80 and dense_dpf_pir_client.cc:64-68. *)
Definition dense_params (num_elements : Z) : list param :=
  [{| p_ld := clog num_elements; p_vt := Some (PTXor 128); p_sec := DFin 0 |}].

(** DenseDpfPirServer: the DPF and the database (dense_dpf_pir_server.h:109-110). *)
Record dense_server := { ds_dpf : dpf; ds_db : db }.
(** CreatePlain, dense_dpf_pir_server.cc:58-85; [None] is a null database. *)
Definition dense_create_plain (config : pir_config) (database : option db) : res dense_server :=
  match config with
  | CfgDense n =>
      database <- match database with Some d => Ok d | None => Err INVALID_ARGUMENT end ;;
      _ <- check (0 <? n)%Z INVALID_ARGUMENT ;;
      _ <- check (Z.of_nat (db_size database) =? n)%Z INVALID_ARGUMENT ;;
      d <- create_incremental F (dense_params n) ;;
      Ok {| ds_dpf := d; ds_db := database |}
  | _ => Err INVALID_ARGUMENT
  end.

(** XorWrapper::value, dense_dpf_pir_server.cc:113-116. *)
Definition num_of (v : cval) : N := match v with VNum n => n | VTup _ => 0 end.
(** The evaluation of one key, dense_dpf_pir_server.cc:113-116. *)
Definition dense_expand (d : dpf) (key : dkey) : res (list N) :=
  ctx <- create_evaluation_context d key ;;
  values <- fst (evaluate_next aes d block_type [] ctx) ;;
  Ok (map num_of values).
(** HandlePlainRequest, dense_dpf_pir_server.cc:92-127.  An empty list of inner products
    leaves the response unset. *)
Definition dense_handle_plain (t : target) (s : dense_server) (req : request) : res response :=
  match req with
  | RqPlain plain =>
      _ <- check (negb (Nat.eqb (length (pq_keys plain)) 0)) INVALID_ARGUMENT ;;
      selections <- mapM (dense_expand (ds_dpf s)) (pq_keys plain) ;;
      inner_products <- inner_product_with t (ds_db s) selections ;;
      Ok (match inner_products with [] => None | _ => Some inner_products end)
  | _ => Err INVALID_ARGUMENT
  end.

(** DenseDpfPirClient; database_size_ is an int (dense_dpf_pir_client.h:83-84). *)
Record dense_client := { dc_dpf : dpf; dc_size : Z }.
(** Create, dense_dpf_pir_client.cc:42-75; [encrypter_set] says whether an encrypter was
    passed. *)
Definition dense_client_create (config : pir_config) (encrypter_set : bool) : res dense_client :=
  match config with
  | CfgDense n =>
      _ <- check (0 <? n)%Z INVALID_ARGUMENT ;;
      _ <- check encrypter_set INVALID_ARGUMENT ;;
      d <- create_incremental F (dense_params n) ;;
      Ok {| dc_dpf := d; dc_size := to_int32 n |}
  | _ => Err INVALID_ARGUMENT
  end.

(** One pair of keys, dense_dpf_pir_client.cc:95-102.  The templated GenerateKeys registers the
    value type; the seeds come from RAND_bytes. *)
Definition dense_keys (d : dpf) (query : Z) (seeds : N * N) : res (dkey * dkey) :=
  let alpha := Z.to_N (Z.quot query 128) in
  let beta := VNum (w128 (N.shiftl 1 (Z.to_N (Z.rem query 128)))) in
  generate_keys aes (register_value_type block_type d) alpha [to_value block_type beta] (fst seeds) (snd seeds).

(** CreatePlainRequests, dense_dpf_pir_client.cc:77-115.  [seeds i] are the random seeds for
    query [i], [pad_seed] the result of Aes128CtrSeededPrng::GenerateSeed. *)
Definition dense_create_plain_requests (c : dense_client) (queries : list Z) (seeds : nat -> N * N) (pad_seed : bytes)
  : res (plain_request * helper_request * client_state) :=
  _ <- iterM (fun q =>
         _ <- check (negb (q <? 0)%Z) INVALID_ARGUMENT ;;
         check (negb (dc_size c <=? q)%Z) INVALID_ARGUMENT) queries ;;
  keys <- mapM (fun iq : nat * Z => dense_keys (dc_dpf c) (snd iq) (seeds (fst iq)))
               (combine (seq 0 (length queries)) queries) ;;
  let helper_plain := match keys with
                      | [] => None
                      | _ => Some {| pq_keys := map snd keys; pq_fingerprint := 0 |} end in
  Ok ({| pq_keys := map fst keys; pq_fingerprint := 0 |},
      {| hq_plain := helper_plain; hq_seed := pad_seed |},
      CsDense pad_seed).

(** HandleResponse, dense_dpf_pir_client.cc:117-154. *)
Definition dense_handle_response (resp : response) (state : client_state) : res (list bytes) :=
  match resp with
  | None => Err INVALID_ARGUMENT
  | Some l =>
      seed <- match state with CsDense seed => Ok seed | _ => Err INVALID_ARGUMENT end ;;
      _ <- check (negb (Nat.eqb (length l) 0)) INVALID_ARGUMENT ;;
      _ <- check (negb (Nat.eqb (length seed) 0)) INVALID_ARGUMENT ;;
      p <- prng_create seed ;;
      mask_all aes p l
  end.
End Dense.
