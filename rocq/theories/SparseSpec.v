(** Specification vocabulary for sparse PIR (C38-C41, C45). *)
From Coq Require Import List NArith ZArith Bool.
From Verif Require Import Base ValueTypesModel DpfModel PirDbModel PirSpec PirModel PirProtoSpec HashModel SparseModel.
Import ListNotations.
Open Scope N_scope.

(** The value of the first pair with key [k]. *)
Definition key_eqb (a b : bytes) : bool := if list_eq_dec N.eq_dec a b then true else false.
Definition first_value (kvs : list (bytes * bytes)) (k : bytes) : option bytes :=
  option_map snd (find (fun kv => key_eqb (fst kv) k) kvs).
Definition distinct_keys (kvs : list (bytes * bytes)) : list bytes :=
  nodup (list_eq_dec N.eq_dec) (map fst kvs).
Definition total_bytes (kvs : list (bytes * bytes)) : N :=
  fold_right (fun kv n => N.of_nat (length (fst kv)) + N.of_nat (length (snd kv)) + n) 0 kvs.

(** The bucket that hash function [j] of a configuration assigns to [q]: the SHA-256 digest of
    seed || j || q, as a little-endian number, modulo the number of buckets [n].  [j] is written in
    decimal (see C44). *)
Definition bucket (sha : bytes -> bytes) (seed : bytes) (n : Z) (q : bytes) (j : nat) : nat :=
  Z.to_nat (Z.of_N (le_decode (sha (seed ++ str_cat (N.of_nat j) ++ q))) mod n)%Z.

(** A string without its trailing zero bytes. *)
Fixpoint stripped (b : bytes) : bytes :=
  match b with
  | [] => []
  | x :: b' => match stripped b' with
               | [] => if x =? 0 then [] else [x]
               | s => x :: s
               end
  end.

(** ** Histories of the builders: what was inserted since the last Clear *)

Record gsparse (P : Type) := { gs_params : P; gs_records : list (bytes * bytes); gs_built : bool }.
Arguments gs_params {P}.
Arguments gs_records {P}.
Arguments gs_built {P}.

(** Calls on a cuckoo builder; CClone continues with the clone. *)
Inductive cop :=
| CInsert (kv : bytes * bytes)
| CClear
| CSetParams (p : cuckoo_params)
| CSetKeyBuilder (d : option builder)
| CSetValueBuilder (d : option builder)
| CClone
| CBuild (lo : cuckoo_builder).
Definition cstep (b : cuckoo_builder) (o : cop) : cuckoo_builder :=
  match o with
  | CInsert kv => cuckoo_add b kv
  | CClear => cuckoo_clear b
  | CSetParams p => cuckoo_set_params b p
  | CSetKeyBuilder d => cuckoo_set_key_builder b d
  | CSetValueBuilder d => cuckoo_set_value_builder b d
  | CClone => cuckoo_clone b
  | CBuild lo => cuckoo_after_build lo b
  end.
Definition gcstep (g : gsparse cuckoo_params) (o : cop) : gsparse cuckoo_params :=
  match o with
  | CInsert kv => {| gs_params := gs_params g; gs_records := gs_records g ++ [kv]; gs_built := gs_built g |}
  | CClear => {| gs_params := gs_params g; gs_records := []; gs_built := false |}
  | CSetParams p => {| gs_params := p; gs_records := gs_records g; gs_built := gs_built g |}
  | CSetKeyBuilder _ | CSetValueBuilder _ | CClone => g
  | CBuild _ => {| gs_params := gs_params g; gs_records := gs_records g; gs_built := true |}
  end.
Definition crun (ops : list cop) : cuckoo_builder := fold_left cstep ops cuckoo_new.
Definition gcrun (ops : list cop) : gsparse cuckoo_params :=
  fold_left gcstep ops {| gs_params := default_cuckoo_params; gs_records := []; gs_built := false |}.

(** Calls on a simple builder. *)
Inductive sop :=
| SInsert (kv : bytes * bytes)
| SClear
| SSetParams (p : simple_params)
| SSetDenseBuilder (d : option builder)
| SClone
| SBuild (lo : simple_builder).
Definition sstep (b : simple_builder) (o : sop) : simple_builder :=
  match o with
  | SInsert kv => simple_add b kv
  | SClear => simple_clear b
  | SSetParams p => simple_set_params b p
  | SSetDenseBuilder d => simple_set_dense_builder b d
  | SClone => simple_clone b
  | SBuild lo => simple_after_build lo b
  end.
Definition gsstep (g : gsparse simple_params) (o : sop) : gsparse simple_params :=
  match o with
  | SInsert kv => {| gs_params := gs_params g; gs_records := gs_records g ++ [kv]; gs_built := gs_built g |}
  | SClear => {| gs_params := gs_params g; gs_records := []; gs_built := false |}
  | SSetParams p => {| gs_params := p; gs_records := gs_records g; gs_built := gs_built g |}
  | SSetDenseBuilder _ | SClone => g
  | SBuild _ => {| gs_params := gs_params g; gs_records := gs_records g; gs_built := true |}
  end.
Definition srun (ops : list sop) : simple_builder := fold_left sstep ops simple_new.
Definition gsrun (ops : list sop) : gsparse simple_params :=
  fold_left gsstep ops {| gs_params := {| sp_hash := {| hf_family := 0; hf_seed := [] |}; sp_buckets := 0 |};
                          gs_records := []; gs_built := false |}.

(** ** One exchange of the protocol *)

(** The channel from the client to the Helper: serialization and encryption. *)
Record channel := {
  ch_ser : helper_request -> bytes;
  ch_par : bytes -> option helper_request;
  ch_enc : bytes -> bytes -> res bytes;
  ch_dec : bytes -> bytes -> res bytes;
  ch_context : bytes
}.
Definition channel_ok (ch : channel) : Prop :=
  (forall h, ch_par ch (ch_ser ch h) = Some h) /\
  (forall m, exists e, ch_enc ch m (ch_context ch) = Ok e /\ ch_dec ch e (ch_context ch) = Ok m).

(** Client and both servers are created from the same parameters, the servers with databases [d0]
    (Leader) and [d1] (Helper); the client sends one batch of queries and handles the response. *)
Definition cuckoo_exchange (aes : N -> N -> N) (F : fops) (clog : Z -> Z) (sha : bytes -> bytes) (ch : channel) (p : cuckoo_params)
    (t0 t1 : target) (d0 d1 : cuckoo_db) (queries : list bytes) (seeds : nat -> N * N) (pad : bytes) : res (list (option bytes)) :=
  c <- cuckoo_client_create sha F clog (PpCuckoo p) true ;;
  s0 <- cuckoo_create_plain sha F clog p (Some d0) ;;
  s1 <- cuckoo_create_plain sha F clog p (Some d1) ;;
  '(req, state) <- create_request (ch_ser ch) (ch_enc ch) (ch_context ch) (cuckoo_create_plain_requests aes c queries seeds pad) ;;
  response <- handle_request aes (ch_par ch) (cuckoo_handle_plain aes t0 s0)
                (Leader (honest_sender (handle_request aes (ch_par ch) (cuckoo_handle_plain aes t1 s1)
                                          (Helper (ch_dec ch) (ch_context ch))))) req ;;
  cuckoo_handle_response aes c response state.
Definition simple_exchange (aes : N -> N -> N) (F : fops) (clog : Z -> Z) (sha : bytes -> bytes) (ch : channel) (p : simple_params)
    (t0 t1 : target) (d0 d1 : simple_db) (queries : list bytes) (seeds : nat -> N * N) (pad : bytes) : res (list (option bytes)) :=
  c <- simple_client_create sha F clog (PpSimple p) true ;;
  s0 <- simple_create_plain sha F clog p (Some d0) ;;
  s1 <- simple_create_plain sha F clog p (Some d1) ;;
  '(req, state) <- create_request (ch_ser ch) (ch_enc ch) (ch_context ch) (simple_create_plain_requests aes c queries seeds pad) ;;
  response <- handle_request aes (ch_par ch) (simple_handle_plain aes t0 s0)
                (Leader (honest_sender (handle_request aes (ch_par ch) (simple_handle_plain aes t1 s1)
                                          (Helper (ch_dec ch) (ch_context ch))))) req ;;
  simple_handle_response aes response state.
