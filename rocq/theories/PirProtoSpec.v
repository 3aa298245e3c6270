(** Specification vocabulary for the PIR protocol (C32-C36). *)
From Coq Require Import List NArith ZArith Bool.
From Verif Require Import Base ValueTypesModel DpfModel PirDbModel PirSpec PirModel.
Import ListNotations.
Open Scope N_scope.

(** The AES-CTR key stream: byte [i] is byte [i mod 16] of the encryption of the counter
    nonce + i/16, a big-endian 128-bit number. *)
Definition counter_block (nonce : bytes) (j : N) : bytes :=
  rev (le_encode 16 ((le_decode (rev nonce) + j) mod 2 ^ 128)).
Definition keystream (aes : N -> N -> N) (seed nonce : bytes) (i : nat) : N :=
  nth (Nat.modulo i 16) (le_encode 16 (aes (le_decode seed) (le_decode (counter_block nonce (N.of_nat (Nat.div i 16)))))) 0.
(** A sequence of GetRandomBytes calls. *)
Fixpoint random_strings (aes : N -> N -> N) (p : prng) (lengths : list nat) : res (list bytes) :=
  match lengths with
  | [] => Ok []
  | n :: lengths' =>
      '(b, p') <- random_bytes aes n p ;;
      bs <- random_strings aes p' lengths' ;;
      Ok (b :: bs)
  end.

(** The one-time pads for responses of the given lengths: consecutive pieces of the key
    stream with nonce zero, starting at position [pos]. *)
Fixpoint pads (aes : N -> N -> N) (seed : bytes) (pos : nat) (lengths : list nat) : list bytes :=
  match lengths with
  | [] => []
  | n :: lengths' => map (keystream aes seed (repeat 0 16)) (seq pos n) :: pads aes seed (pos + n) lengths'
  end.
(** Entry-wise byte-wise XOR. *)
Definition xor_lists (a b : list bytes) : list bytes := zip2 bxor a b.
Definition same_shape (a b : list bytes) : Prop := map (@length N) a = map (@length N) b.

(** ** Honest roles *)

(** A sender that runs the callback and returns what the helper returns. *)
Definition honest_sender (helper : request -> res response) : sender := fun req => (true, helper req).

(** std::ceil(std::log2(n)) converted to int, for any faithful rounding. *)
Definition clog_ok (clog : Z -> Z) (n : Z) : Prop := (Z.log2 n <= clog n <= Z.log2_up n)%Z.

(** A record padded with zeros. *)
Definition zero_padded (size : nat) (r : bytes) : bytes := r ++ repeat 0 (size - length r).
