(** The messages between the parties as serialized protocol buffers: PIR requests and responses,
    the state of a PIR client, the public parameters of a PIR server, and keys of DCFs and of
    multiple interval containment gates.  As in KeyWireModel.v the format and the parser are those
    of the protocol buffer library. *)
From Coq Require Import List NArith ZArith Bool.
From Verif Require Import Base ValueTypesModel DpfModel DcfModel HashModel PirModel SparseModel WireModel KeyWireModel ContextWireModel.
Import ListNotations.
Open Scope N_scope.

(** * Serialization *)

(** A bytes field that is not repeated; an empty one is not written
    (pir/private_information_retrieval.proto:145, 152, 164, 170, 177). *)
Definition bytes_field (tag : N) (b : bytes) : bytes := match b with [] => [] | _ => encode_field tag b end.
(** A repeated bytes field (pir/private_information_retrieval.proto:171, 178 and 184). *)
Definition strings_field (tag : N) (l : list bytes) : bytes := flat_map (encode_field tag) l.
(** DpfPirRequest.EncryptedHelperRequest, pir/private_information_retrieval.proto:144-146. *)
Definition write_encrypted (e : bytes) : bytes := bytes_field 10 e.
(** DpfPirRequest.LeaderRequest, pir/private_information_retrieval.proto:138-141. *)
Definition write_leader (p : option plain_request) (e : option bytes) : bytes :=
  write_optional 10 write_plain p ++ write_optional 18 write_encrypted e.
(** PirRequest and DpfPirRequest, pir/private_information_retrieval.proto:65-69 and 126-160. *)
Definition write_request (r : request) : bytes :=
  match r with
  | RqUnset => []
  | RqDpfUnset => encode_field 10 []
  | RqPlain p => encode_field 10 (encode_field 10 (write_plain p))
  | RqLeader p e => encode_field 10 (encode_field 18 (write_leader p e))
  | RqHelper e => encode_field 10 (encode_field 26 (write_encrypted e))
  end.
(** PirResponse and DpfPirResponse, pir/private_information_retrieval.proto:73-77 and 183-185. *)
Definition write_response (r : response) : bytes := write_optional 10 (strings_field 10) r.
(** The states of the clients of sparse PIR, pir/private_information_retrieval.proto:169-172 and 176-179. *)
Definition write_queries (seed : bytes) (queries : list bytes) : bytes := bytes_field 10 seed ++ strings_field 18 queries.
(** PirRequestClientState, pir/private_information_retrieval.proto:45-53 and 163-179. *)
Definition write_state (s : client_state) : bytes :=
  match s with
  | CsUnset => []
  | CsDense seed => encode_field 10 (bytes_field 10 seed)
  | CsCuckoo seed queries => encode_field 18 (write_queries seed queries)
  | CsSimple seed queries => encode_field 26 (write_queries seed queries)
  end.
(** HashFamilyConfig, pir/hashing/hash_family_config.proto:25-35; an enum is written as an int32. *)
Definition write_hash_config (h : hash_family_config) : bytes := int32_field 8 (hf_family h) ++ bytes_field 18 (hf_seed h).
(** PirServerPublicParams, CuckooHashingParams and SimpleHashingParams,
    pir/private_information_retrieval.proto:57-62 and 102-117.  Simplification: the hash family is
    always set, as GenerateParams does (pir/cuckoo_hashing_sparse_dpf_pir_server.cc:67-69 and
    pir/simple_hashing_sparse_dpf_pir_server.cc:66-68). *)
Definition write_public_params (p : public_params) : bytes :=
  match p with
  | PpUnset => []
  | PpCuckoo p => encode_field 10 (encode_field 10 (write_hash_config (cp_hash p)) ++ int32_field 16 (cp_functions p) ++ int32_field 24 (cp_buckets p))
  | PpSimple p => encode_field 18 (encode_field 10 (write_hash_config (sp_hash p)) ++ int32_field 16 (sp_buckets p))
  end.
(** DcfKey, dcf/distributed_comparison_function.proto:27-29.  Simplification: the DPF key is
    always set, as GenerateKeys does (dcf/distributed_comparison_function.cc:94-101). *)
Definition write_dcf_key (k : dkey) : bytes := encode_field 10 (write_key k).
(** MicKey, dcf/fss_gates/multiple_interval_containment.proto:51-60.  Simplification: the DCF key
    is always set, as Gen does (dcf/fss_gates/multiple_interval_containment.cc:152-153). *)
Definition write_mic_key (k : mic_key) : bytes :=
  encode_field 10 (write_dcf_key (mk_dcf k)) ++ flat_map (fun v => encode_field 18 (write_vinteger v)) (mk_shares k).

(** * Parsing *)

(** An int64 from a varint (pir/private_information_retrieval.proto:108 and 116). *)
Definition int64_of (x : N) : Z := ((Z.of_N x + 2 ^ 63) mod 2 ^ 64 - 2 ^ 63)%Z.
(** DpfPirRequest.EncryptedHelperRequest, pir/private_information_retrieval.proto:144-146. *)
Definition parse_encrypted : nat -> bytes -> bytes -> option bytes :=
  parse_into (fun _ m f => match f with (1, WLen b) => Some b | _ => Some m end).
(** DpfPirRequest.LeaderRequest, pir/private_information_retrieval.proto:138-141. *)
Definition leader_step (depth : nat) (m : option plain_request * option bytes) (f : N * wire) : option (option plain_request * option bytes) :=
  match f with
  | (1, WLen b) =>
      option_map (fun q => (Some q, snd m)) (sub_message parse_plain depth (match fst m with Some q => q | None => default_plain end) b)
  | (2, WLen b) =>
      option_map (fun e => (fst m, Some e)) (sub_message parse_encrypted depth (match snd m with Some e => e | None => [] end) b)
  | _ => Some m
  end.
(** See [leader_step] (pir/private_information_retrieval.proto:138-141). *)
Definition parse_leader : nat -> option plain_request * option bytes -> bytes -> option (option plain_request * option bytes) :=
  parse_into leader_step.
(** DpfPirRequest, pir/private_information_retrieval.proto:126-160: a member of the oneof replaces
    the one set before, unless both are the same, which are then merged. *)
Definition dpf_request_step (depth : nat) (m : request) (f : N * wire) : option request :=
  match f with
  | (1, WLen b) =>
      option_map RqPlain (sub_message parse_plain depth (match m with RqPlain p => p | _ => default_plain end) b)
  | (2, WLen b) =>
      option_map (fun pe : option plain_request * option bytes => RqLeader (fst pe) (snd pe))
        (sub_message parse_leader depth (match m with RqLeader p e => (p, e) | _ => (None, None) end) b)
  | (3, WLen b) =>
      option_map RqHelper (sub_message parse_encrypted depth (match m with RqHelper e => e | _ => [] end) b)
  | _ => Some m
  end.
(** See [dpf_request_step] (pir/private_information_retrieval.proto:126-160). *)
Definition parse_dpf_request : nat -> request -> bytes -> option request := parse_into dpf_request_step.
(** ParseFromString of a PirRequest, pir/private_information_retrieval.proto:65-69, as a server
    does that receives requests. *)
Definition parse_request (limit : nat) (b : bytes) : option request :=
  parse_into (fun depth m f =>
    match f with
    | (1, WLen b) => sub_message parse_dpf_request depth (match m with RqUnset => RqDpfUnset | _ => m end) b
    | _ => Some m
    end) limit RqUnset b.
(** Appending to a repeated bytes field (pir/private_information_retrieval.proto:184). *)
Definition parse_strings : nat -> list bytes -> bytes -> option (list bytes) :=
  parse_into (fun _ m f => match f with (1, WLen b) => Some (m ++ [b]) | _ => Some m end).
(** ParseFromString of a PirResponse, pir/private_information_retrieval.proto:73-77 and 183-185. *)
Definition parse_response (limit : nat) (b : bytes) : option response :=
  parse_into (fun depth m f =>
    match f with
    | (1, WLen b) => option_map Some (sub_message parse_strings depth (match m with Some l => l | None => [] end) b)
    | _ => Some m
    end) limit None b.
(** The states of the clients of sparse PIR, pir/private_information_retrieval.proto:169-172 and 176-179. *)
Definition queries_step (depth : nat) (m : bytes * list bytes) (f : N * wire) : option (bytes * list bytes) :=
  match f with
  | (1, WLen b) => Some (b, snd m)
  | (2, WLen b) => Some (fst m, snd m ++ [b])
  | _ => Some m
  end.
(** See [queries_step] (pir/private_information_retrieval.proto:169-172 and 176-179). *)
Definition parse_queries : nat -> bytes * list bytes -> bytes -> option (bytes * list bytes) := parse_into queries_step.
(** PirRequestClientState, pir/private_information_retrieval.proto:45-53 and 163-179. *)
Definition state_step (depth : nat) (m : client_state) (f : N * wire) : option client_state :=
  match f with
  | (1, WLen b) =>
      option_map CsDense (sub_message parse_encrypted depth (match m with CsDense s => s | _ => [] end) b)
  | (2, WLen b) =>
      option_map (fun sq : bytes * list bytes => CsCuckoo (fst sq) (snd sq))
        (sub_message parse_queries depth (match m with CsCuckoo s q => (s, q) | _ => ([], []) end) b)
  | (3, WLen b) =>
      option_map (fun sq : bytes * list bytes => CsSimple (fst sq) (snd sq))
        (sub_message parse_queries depth (match m with CsSimple s q => (s, q) | _ => ([], []) end) b)
  | _ => Some m
  end.
(** ParseFromString of a PirRequestClientState, as a client does that stores its state
    (pir/private_information_retrieval.proto:45-53). *)
Definition parse_state (limit : nat) (b : bytes) : option client_state := parse_into state_step limit CsUnset b.
(** HashFamilyConfig, pir/hashing/hash_family_config.proto:25-35; proto3 keeps unknown values of
    an enum. *)
Definition hash_config_step (depth : nat) (m : hash_family_config) (f : N * wire) : option hash_family_config :=
  match f with
  | (1, WVarint x) => Some {| hf_family := int32_of x; hf_seed := hf_seed m |}
  | (2, WLen b) => Some {| hf_family := hf_family m; hf_seed := b |}
  | _ => Some m
  end.
(** See [hash_config_step] (pir/hashing/hash_family_config.proto:25-35). *)
Definition parse_hash_config : nat -> hash_family_config -> bytes -> option hash_family_config := parse_into hash_config_step.
(** The default HashFamilyConfig, pir/hashing/hash_family_config.proto:25-35. *)
Definition default_hash_config : hash_family_config := {| hf_family := 0; hf_seed := [] |}.
(** CuckooHashingParams, pir/private_information_retrieval.proto:102-109. *)
Definition cuckoo_params_step (depth : nat) (m : cuckoo_params) (f : N * wire) : option cuckoo_params :=
  match f with
  | (1, WLen b) =>
      option_map (fun h => {| cp_hash := h; cp_functions := cp_functions m; cp_buckets := cp_buckets m |}) (sub_message parse_hash_config depth (cp_hash m) b)
  | (2, WVarint x) => Some {| cp_hash := cp_hash m; cp_functions := int32_of x; cp_buckets := cp_buckets m |}
  | (3, WVarint x) => Some {| cp_hash := cp_hash m; cp_functions := cp_functions m; cp_buckets := int64_of x |}
  | _ => Some m
  end.
(** SimpleHashingParams, pir/private_information_retrieval.proto:112-117. *)
Definition simple_params_step (depth : nat) (m : simple_params) (f : N * wire) : option simple_params :=
  match f with
  | (1, WLen b) => option_map (fun h => {| sp_hash := h; sp_buckets := sp_buckets m |}) (sub_message parse_hash_config depth (sp_hash m) b)
  | (2, WVarint x) => Some {| sp_hash := sp_hash m; sp_buckets := int64_of x |}
  | _ => Some m
  end.
(** The default CuckooHashingParams, pir/private_information_retrieval.proto:102-109. *)
Definition default_cuckoo_params : cuckoo_params := {| cp_hash := default_hash_config; cp_functions := 0; cp_buckets := 0 |}.
(** The default SimpleHashingParams, pir/private_information_retrieval.proto:112-117. *)
Definition default_simple_params : simple_params := {| sp_hash := default_hash_config; sp_buckets := 0 |}.
(** PirServerPublicParams, pir/private_information_retrieval.proto:57-62. *)
Definition public_params_step (depth : nat) (m : public_params) (f : N * wire) : option public_params :=
  match f with
  | (1, WLen b) =>
      option_map PpCuckoo (sub_message (parse_into cuckoo_params_step) depth (match m with PpCuckoo p => p | _ => default_cuckoo_params end) b)
  | (2, WLen b) =>
      option_map PpSimple (sub_message (parse_into simple_params_step) depth (match m with PpSimple p => p | _ => default_simple_params end) b)
  | _ => Some m
  end.
(** ParseFromString of a PirServerPublicParams, as a client does that receives them
    (pir/private_information_retrieval.proto:57-62). *)
Definition parse_public_params (limit : nat) (b : bytes) : option public_params := parse_into public_params_step limit PpUnset b.
(** DcfKey, dcf/distributed_comparison_function.proto:27-29. *)
Definition parse_dcf_into : nat -> dkey -> bytes -> option dkey :=
  parse_into (fun depth m f => match f with (1, WLen b) => sub_message parse_key depth m b | _ => Some m end).
(** ParseFromString of a DcfKey, as an application does that stores or sends keys
    (dcf/distributed_comparison_function.proto:27-29). *)
Definition parse_dcf_key (limit : nat) (b : bytes) : option dkey := parse_dcf_into limit default_key b.
(** MicKey, dcf/fss_gates/multiple_interval_containment.proto:51-60. *)
Definition mic_key_step (depth : nat) (m : mic_key) (f : N * wire) : option mic_key :=
  match f with
  | (1, WLen b) => option_map (fun k => {| mk_dcf := k; mk_shares := mk_shares m |}) (sub_message parse_dcf_into depth (mk_dcf m) b)
  | (2, WLen b) => option_map (fun v => {| mk_dcf := mk_dcf m; mk_shares := mk_shares m ++ [v] |}) (sub_message parse_vinteger depth VIUnset b)
  | _ => Some m
  end.
(** ParseFromString of a MicKey, as an application does that stores or sends keys
    (dcf/fss_gates/multiple_interval_containment.proto:51-60). *)
Definition parse_mic_key (limit : nat) (b : bytes) : option mic_key := parse_into mic_key_step limit {| mk_dcf := default_key; mk_shares := [] |} b.
