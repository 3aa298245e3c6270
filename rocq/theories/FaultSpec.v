(** What it means that failures of OpenSSL calls are reported. *)
From Coq Require Import List NArith ZArith Bool.
From Verif Require Import Base DpfModel.
Import ListNotations.

(** The calls number [n], ..., [n' - 1] succeed. *)
Definition succeed (status : nat -> Z) (n n' : nat) : Prop := forall i, (n <= i < n')%nat -> status i = 1%Z.
(** Of these calls the last one fails, and no other. *)
Definition last_fails (status : nat -> Z) (n n' : nat) : Prop :=
  exists i, n' = S i /\ (n <= i)%nat /\ succeed status n i /\ status i <> 1%Z.

(** [o] is an outcome with the number of calls made, starting from [n] calls: if all calls succeeded, then it is [r], and otherwise it is an INTERNAL error,
    without further calls after the failure. *)
Definition reported_at {A} (status : nat -> Z) (n : nat) (o : res A * nat) (r : res A) : Prop :=
  (n <= snd o)%nat /\
  (succeed status n (snd o) /\ fst o = r \/ last_fails status n (snd o) /\ fst o = Err INTERNAL).
Definition reported {A} (status : nat -> Z) (m : nat -> res A * nat) (r : res A) : Prop :=
  forall n, reported_at status n (m n) r.

(** The same for calls that modify a context: without failures outcome and context are [r]. *)
Definition reported_ctx {A} (status : nat -> Z) (m : nat -> (res A * ectx) * nat) (r : res A * ectx) : Prop :=
  forall n, (n <= snd (m n))%nat /\
    (succeed status n (snd (m n)) /\ fst (m n) = r \/
     last_fails status n (snd (m n)) /\ fst (fst (m n)) = Err INTERNAL).
