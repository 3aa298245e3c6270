(** Aes128FixedKeyHash::Evaluate on a memory in which its spans may overlap. *)
From Coq Require Import List NArith Bool.
From Verif Require Import Base ValueTypesModel DpfModel.
Import ListNotations.
Open Scope N_scope.

Section Memory.
(** AES-128 encryption of one block under a key (OpenSSL); any function. *)
Variable aes : N -> N -> N.
Variable key : N.

(** A memory of 128-bit words; a span is an address and a size
    (aes_128_fixed_key_hash.cc:59-60). *)
Definition store (mem : list N) (addr : nat) (x : N) : res (list N) :=
  if Nat.ltb addr (length mem) then Ok (set_nth mem addr x) else UB.
(** Storing the words of a buffer one after the other (aes_128_fixed_key_hash.cc:85-88). *)
Fixpoint store_all (mem : list N) (addr : nat) (xs : list N) : res (list N) :=
  match xs with
  | [] => Ok mem
  | x :: xs' => mem' <- store mem addr x ;; store_all mem' (S addr) xs'
  end.
(** out[start_block + i] ^= sigma_in[i], aes_128_fixed_key_hash.cc:95-97. *)
Fixpoint xor_all (mem : list N) (addr : nat) (xs : list N) : res (list N) :=
  match xs with
  | [] => Ok mem
  | x :: xs' => y <- at_or_ub mem addr ;; mem' <- store mem addr (N.lxor y x) ;; xor_all mem' (S addr) xs'
  end.
(** One iteration of the loop over batches, aes_128_fixed_key_hash.cc:73-98: the sigma values of the
    batch are kept in a local array.  Simplification: OpenSSL never fails. *)
Definition evaluate_batch (inp out size : nat) (mem : list N) (start : nat) : res (list N) :=
  let bs := Nat.min (size - start) batch_size in
  sigma_in <- mapM (fun i => x <- at_or_ub mem (inp + start + i)%nat ;; Ok (sigma x)) (seq 0 bs) ;;
  mem' <- store_all mem (out + start) (map (aes key) sigma_in) ;;
  xor_all mem' (out + start) sigma_in.
(** Evaluate, aes_128_fixed_key_hash.cc:59-100, with [in] at address [inp] and [out] at address
    [out]; the result is the memory afterwards. *)
Definition evaluate_memory (mem : list N) (inp in_size out out_size : nat) : res (list N) :=
  _ <- check (Nat.eqb in_size out_size) INVALID_ARGUMENT ;;
  foldM (evaluate_batch inp out in_size)
        (map (fun b => b * batch_size)%nat (seq 0 (Nat.div (in_size + (batch_size - 1)) batch_size))) mem.
End Memory.
