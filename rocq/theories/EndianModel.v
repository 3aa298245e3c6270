(** The branches of the value conversions for hosts that are not little-endian. *)
From Coq Require Import List NArith Bool.
From Verif Require Import Base ValueTypesModel.
Import ListNotations.
Open Scope N_scope.

(** The loop over the bytes from the last to the first, value_type_helpers.h:222-225 and
    int_mod_n.h:78-81: out |= bytes[i]; out <<= 8, in an integer of [w] bits. *)
Fixpoint shift_loop (w : N) (b : bytes) : N :=
  match b with
  | [] => 0
  | x :: b' => (N.shiftl (N.lor (shift_loop w b') (x mod 256)) 8) mod 2 ^ w
  end.
(** Integer DirectlyFromBytes, value_type_helpers.h:216-228, and IntModNBase::ConvertBytesTo,
    int_mod_n.h:71-84, on hosts that are not little-endian. *)
Definition int_from_bytes_big (w : N) (b : bytes) : res N :=
  _ <- abort_unless (Nat.eqb (length b) (nbytes w)) ;;
  Ok (shift_loop w b).
(** ConvertBytesToArrayOf<T> for an integer or XorWrapper of [w] bits, value_type_helpers.h:586-598. *)
Definition convert_integers_big (w : N) (b : bytes) : res (list N) :=
  let n := N.to_nat (128 / w) in
  _ <- abort_unless (Nat.leb (n * nbytes w) (length b)) ;;
  mapM (fun i => sub <- substr b (i * nbytes w) (nbytes w) ;; int_from_bytes_big w sub) (seq 0 n).
(** ComputeValueCorrectionFor<T> for an integer or XorWrapper [t] of [w] bits,
    value_type_helpers.h:614-648. *)
Definition compute_value_correction_big (t : cty) (w : N) (seed_a seed_b : bytes)
    (block_index : nat) (beta : pvalue) (invert : bool) : res (list pvalue) :=
  beta_T <- from_value t beta ;;
  ints_a <- convert_integers_big w seed_a ;;
  ints_b <- convert_integers_big w seed_b ;;
  old <- at_or_ub ints_b block_index ;;
  let ints_b := set_nth (map VNum ints_b) block_index (vadd t (VNum old) beta_T) in
  let ints := zip2 (fun b a => let d := vsub t b a in
                               if invert then vneg t d else d) ints_b (map VNum ints_a) in
  Ok (map (to_value t) ints).
