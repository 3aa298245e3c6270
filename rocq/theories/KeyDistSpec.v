(** Vocabulary for the distribution of a whole key. *)
From Coq Require Import List NArith ZArith Bool.
From Verif Require Import Base ValueTypesModel DpfModel DpfTree DpfPrivacySpec SampleSpec CorrectionSpec.
Import ListNotations.
Open Scope N_scope.

(** All contents of the bytes that a seed expands to at the levels of [d]. *)
Definition contents (d : dpf) : list (list bytes) :=
  choices (map (fun h => tuples (16 * nth h (d_blocks d) 0)%nat 256) (seq 0 (length (d_params d)))).
(** The bytes of [n] blocks that [seed] expands to. *)
Definition expansion (aes : N -> N -> N) (n : nat) (seed : N) : bytes :=
  concat (map (fun j => le_encode 16 (hash aes kPrgKeyValue (w128 (seed + N.of_nat j)))) (seq 0 n)).
(** Keys that differ in their values only. *)
Definition same_tree (key key' : dkey) : Prop :=
  k_seed key = k_seed key' /\ k_party key = k_party key' /\
  map (fun cw => (cw_seed cw, cw_left cw, cw_right cw)) (k_cws key) =
  map (fun cw => (cw_seed cw, cw_left cw, cw_right cw)) (k_cws key').
(** [test] accepts the key of party 1 ([f]) or party 0. *)
Definition passes (f : bool) (test : dkey -> bool) (r : res (dkey * dkey)) : bool :=
  match r with Ok ks => test (key_of f ks) | _ => false end.
