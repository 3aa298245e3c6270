(** Specification vocabulary for what a single DPF key reveals: the shape of a key, the
    places where the block cipher is used along a path, and programs that use the cipher
    as an oracle. *)
From Coq Require Import List NArith ZArith Bool.
From Verif Require Import Base ValueTypesModel ValueTypesSpec DpfModel DpfTree DpfSpec.
Import ListNotations.
Open Scope N_scope.

(** * The shape of a key *)

(** [vs] holds the elements of one block of type [T], as ToValue writes them. *)
Definition block_of (T : cty) (vs : list pvalue) : Prop :=
  exists es, length es = elements_per_block T /\ Forall (fun v => wt T v = true) es /\
             vs = map (to_value T) es.
(** A DpfKey proto for party [party] of a DPF with parameters [ps]: a seed, one correction
    word for every tree level but the first, each with an even seed correction, values
    exactly in the correction words of the tree levels that belong to a hierarchy level,
    and values for the last hierarchy level. *)
Record key_shape (ps : list param) (d : dpf) (party : Z) (key : dkey) : Prop := {
  ks_party : k_party key = party;
  ks_seed : exists s, k_seed key = Some s;
  ks_cws : length (k_cws key) = (d_levels d - 1)%nat;
  ks_even : Forall (fun cw => N.even (cw_seed cw) = true) (k_cws key);
  ks_level : forall h cw, (S h < length ps)%nat -> nth_error (k_cws key) (nth h (d_h2t d) 0%nat) = Some cw ->
    exists T, level_has ps h T /\ block_of T (cw_values cw);
  ks_none : forall i cw, nth_error (k_cws key) i = Some cw -> ~ In i (d_h2t d) -> cw_values cw = [];
  ks_last : exists T, level_has ps (length ps - 1) T /\ block_of T (k_last key)
}.
(** All blocks in the key are 128-bit integers. *)
Definition key_blocks (key : dkey) : Prop :=
  (forall s, k_seed key = Some s -> s < 2 ^ 128) /\
  Forall (fun cw => cw_seed cw < 2 ^ 128) (k_cws key).

(** * Uses of the block cipher along a path *)

(** The node of [key] at depth [i] on the path of the domain element [alpha] of the last
    level ([ld] bits). *)
Definition path_node (aes : N -> N -> N) (ld : N) (key : dkey) (alpha : N) (i : nat) : node :=
  walk aes (map corr_of (firstn i (k_cws key))) (N.shiftr alpha (ld - N.of_nat i))
       (key_seed key, key_bit key).
(** (AES key, block) for the expansion of the seeds to the next depth, and for the values
    of every hierarchy level. *)
Definition seed_uses (d : dpf) (seeds : nat -> N) : list (N * N) :=
  flat_map (fun i => [(kPrgKeyLeft, sigma (seeds i)); (kPrgKeyRight, sigma (seeds i))])
           (seq 0 (d_levels d - 1)) ++
  flat_map (fun h => map (fun j => (kPrgKeyValue, sigma (w128 (seeds (nth h (d_h2t d) 0%nat) + N.of_nat j))))
                         (seq 0 (nth h (d_blocks d) 0%nat)))
           (seq 0 (length (d_params d))).
Definition path_uses (aes : N -> N -> N) (ps : list param) (d : dpf) (key : dkey) (alpha : N)
  : list (N * N) :=
  seed_uses d (fun i => fst (path_node aes (last_ld ps) key alpha i)).

(** GenerateKeysIncremental accepts alpha and beta. *)
Definition accepted (d : dpf) (alpha : N) (beta : list pvalue) : Prop :=
  alpha < 2 ^ 128 /\
  exists aes s0 s1 ks, generate_keys aes d alpha beta s0 s1 = Ok ks.

(** The key of party 1 ([f]) or party 0. *)
Definition key_of (f : bool) (ks : dkey * dkey) : dkey := if f then snd ks else fst ks.
(** A block cipher maps 128-bit blocks to 128-bit blocks. *)
Definition on_blocks (aes : N -> N -> N) : Prop := forall k x, x < 2 ^ 128 -> aes k x < 2 ^ 128.
(** Two block ciphers that differ only at [uses]. *)
Definition agree_off (uses : list (N * N)) (aes aes' : N -> N -> N) : Prop :=
  forall k x, ~ In (k, x) uses -> aes' k x = aes k x.
Definition disjoint (l l' : list (N * N)) : Prop := forall q, In q l -> ~ In q l'.

(** No coincidence between the parties: the uses of the other party's key along alpha are
    distinct, and none is a use of party [f]'s key along alpha or along alpha'. *)
Definition apart (aes : N -> N -> N) (ps : list param) (d : dpf) (f : bool) (ks : dkey * dkey)
    (alpha alpha' : N) : Prop :=
  NoDup (path_uses aes ps d (key_of (negb f) ks) alpha) /\
  disjoint (path_uses aes ps d (key_of f ks) alpha) (path_uses aes ps d (key_of (negb f) ks) alpha) /\
  disjoint (path_uses aes ps d (key_of f ks) alpha') (path_uses aes ps d (key_of (negb f) ks) alpha).

(** The same for several key pairs: (keys, (alpha, alpha')). *)
Definition others_uses (aes : N -> N -> N) (ps : list param) (d : dpf) (f : bool)
    (l : list ((dkey * dkey) * (N * N))) : list (N * N) :=
  flat_map (fun j => path_uses aes ps d (key_of (negb f) (fst j)) (fst (snd j))) l.
Definition all_apart (aes : N -> N -> N) (ps : list param) (d : dpf) (f : bool)
    (l : list ((dkey * dkey) * (N * N))) : Prop :=
  NoDup (others_uses aes ps d f l) /\
  forall j, In j l ->
    disjoint (path_uses aes ps d (key_of f (fst j)) (fst (snd j))) (others_uses aes ps d f l) /\
    disjoint (path_uses aes ps d (key_of f (fst j)) (snd (snd j))) (others_uses aes ps d f l).

(** Every level's type is built from unsigned integers and XorWrapper only. *)
Definition no_int_mod_n (ps : list param) : Prop := forall h T, level_has ps h T -> is_direct T = true.

(** * Programs with oracle access *)

(** An adversary that asks for blocks to be encrypted and finally outputs a bit. *)
Inductive oracle_program :=
| Output (b : bool)
| Ask (k x : N) (next : N -> oracle_program).
Fixpoint run_program (aes : N -> N -> N) (p : oracle_program) : bool :=
  match p with
  | Output b => b
  | Ask k x next => run_program aes (next (aes k x))
  end.
(** The questions it asks. *)
Fixpoint asked (aes : N -> N -> N) (p : oracle_program) : list (N * N) :=
  match p with
  | Output _ => []
  | Ask k x next => (k, x) :: asked aes (next (aes k x))
  end.
