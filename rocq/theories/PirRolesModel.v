(** Model of the constructors of PIR servers with a role and of their public parameters
    (pir/dense_dpf_pir_server.{h,cc}, pir/cuckoo_hashing_sparse_dpf_pir_server.{h,cc},
    pir/simple_hashing_sparse_dpf_pir_server.{h,cc}). *)
From Coq Require Import List NArith ZArith Bool String Ascii.
From Verif Require Import Base ValueTypesModel DpfModel PirDbModel PirModel HashModel SparseModel.
Import ListNotations.
Open Scope N_scope.

(** A string literal (dense_dpf_pir_server.h:54-55). *)
Definition literal (s : string) : bytes := map N_of_ascii (list_ascii_of_string s).
(** kEncryptionContextInfo of the three servers, dense_dpf_pir_server.h:54-55,
    cuckoo_hashing_sparse_dpf_pir_server.h:56-57 and simple_hashing_sparse_dpf_pir_server.h:58-59. *)
Definition dense_context : bytes := literal "DenseDpfPirServer".
(** cuckoo_hashing_sparse_dpf_pir_server.h:56-57. *)
Definition cuckoo_context : bytes := literal "CuckooHashingSparseDpfPirServer".
(** simple_hashing_sparse_dpf_pir_server.h:58-59. *)
Definition simple_context : bytes := literal "SimpleHashingSparseDpfPirServer".
(** The default argument `encryption_context_info` of Create of the three clients,
    dense_dpf_pir_client.h:46-49, cuckoo_hashing_sparse_dpf_pir_client.h:48-51 and
    simple_hashing_sparse_dpf_pir_client.h:48-51. *)
Definition dense_client_context : bytes := dense_context.
(** cuckoo_hashing_sparse_dpf_pir_client.h:48-51. *)
Definition cuckoo_client_context : bytes := cuckoo_context.
(** simple_hashing_sparse_dpf_pir_client.h:48-51. *)
Definition simple_client_context : bytes := simple_context.

Section Create.
Variable sha256 : bytes -> bytes.
Variable F : fops.
(** static_cast<int>(std::ceil(std::log2(n))). *)
Variable clog : Z -> Z.

(** DenseDpfPirServer::CreateLeader, dense_dpf_pir_server.cc:39-46: the server and its role. *)
Definition dense_create_leader (config : pir_config) (database : option db) (s : option sender) : res (dense_server * role) :=
  leader <- dense_create_plain F clog config database ;;
  r <- make_leader s ;;
  Ok (leader, r).
(** DenseDpfPirServer::CreateHelper, dense_dpf_pir_server.cc:48-56. *)
Definition dense_create_helper (config : pir_config) (database : option db) (d : option decrypter) : res (dense_server * role) :=
  helper <- dense_create_plain F clog config database ;;
  r <- make_helper d dense_context ;;
  Ok (helper, r).
(** CuckooHashingSparseDpfPirServer::CreateLeader, cuckoo_hashing_sparse_dpf_pir_server.cc:77-84. *)
Definition cuckoo_create_leader (p : cuckoo_params) (database : option cuckoo_db) (s : option sender) : res (cuckoo_server * role) :=
  leader <- cuckoo_create_plain sha256 F clog p database ;;
  r <- make_leader s ;;
  Ok (leader, r).
(** CuckooHashingSparseDpfPirServer::CreateHelper, cuckoo_hashing_sparse_dpf_pir_server.cc:86-94. *)
Definition cuckoo_create_helper (p : cuckoo_params) (database : option cuckoo_db) (d : option decrypter) : res (cuckoo_server * role) :=
  helper <- cuckoo_create_plain sha256 F clog p database ;;
  r <- make_helper d cuckoo_context ;;
  Ok (helper, r).
(** SimpleHashingSparseDpfPirServer::CreateLeader, simple_hashing_sparse_dpf_pir_server.cc:74-81. *)
Definition simple_create_leader (p : simple_params) (database : option simple_db) (s : option sender) : res (simple_server * role) :=
  leader <- simple_create_plain sha256 F clog p database ;;
  r <- make_leader s ;;
  Ok (leader, r).
(** SimpleHashingSparseDpfPirServer::CreateHelper, simple_hashing_sparse_dpf_pir_server.cc:83-91. *)
Definition simple_create_helper (p : simple_params) (database : option simple_db) (d : option decrypter) : res (simple_server * role) :=
  helper <- simple_create_plain sha256 F clog p database ;;
  r <- make_helper d simple_context ;;
  Ok (helper, r).
End Create.

(** GetPublicParams, dense_dpf_pir_server.cc:87-89. *)
Definition dense_public_params (_ : dense_server) : public_params := PpUnset.
(** GetPublicParams and the construction of params_, cuckoo_hashing_sparse_dpf_pir_server.h:100-102 and
    cuckoo_hashing_sparse_dpf_pir_server.cc:132-138. *)
Definition cuckoo_public_params (s : cuckoo_server) : public_params := PpCuckoo (cs_params s).
(** GetPublicParams and the construction of params_, simple_hashing_sparse_dpf_pir_server.h:102-104 and
    simple_hashing_sparse_dpf_pir_server.cc:126-132. *)
Definition simple_public_params (s : simple_server) : public_params := PpSimple (ss_params s).
