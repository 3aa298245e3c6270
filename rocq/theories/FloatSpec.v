(** Accuracy of double arithmetic, and comparisons with the exact logarithm. *)
From Coq Require Import List NArith ZArith QArith Qabs Bool.
From Verif Require Import Base ValueTypesModel DpfModel CorrectionSpec FloatModel.
Import ListNotations.
Open Scope N_scope.

(** log2(x) <= a, for a positive integer [x] and [0 <= a]: x <= 2^a. *)
Definition log2_le (x : N) (a : Q) : Prop := x ^ Npos (Qden a) <= 2 ^ Z.to_N (Qnum a).
(** a <= log2(x). *)
Definition log2_ge (x : N) (a : Q) : Prop := 2 ^ Z.to_N (Qnum a) <= x ^ Npos (Qden a).

(** One unit in the last place of the numbers in [1, 2). *)
Definition ulp : Q := 1 # (2 ^ 52).
Definition near (x y : Q) : Prop := (Qabs (x - y) <= ulp * Qabs y)%Q.

(** Operations with a relative error of at most 2^-52, as IEEE doubles and the logarithms of
    all common C libraries have (correct rounding means 2^-53).  Conversions of integers are monotone and
    exact for representable integers, and the logarithm does not step over an integer. *)
Record accurate (O : dops) : Prop := {
  ac_int : forall n, 0 < n < 2 ^ 128 -> near (inject_Z (Z.of_N (o_of_int O n))) (inject_Z (Z.of_N n));
  ac_int_mono : forall n n', n <= n' <= 2 ^ 128 -> o_of_int O n <= o_of_int O n';
  ac_int_exact : forall n, n <= 2 ^ 53 -> o_of_int O n = n;
  ac_int_pow : forall k, k <= 128 -> o_of_int O (2 ^ k) = 2 ^ k;
  ac_log_nonneg : forall x, 0 < x <= 2 ^ 128 -> (0 <= o_log2 O x)%Q;
  ac_log_above : forall x, 0 < x <= 2 ^ 128 -> log2_le x (o_log2 O x * (1 + 2 * ulp));
  ac_log_below : forall x, 0 < x <= 2 ^ 128 -> log2_ge x (o_log2 O x * (1 - ulp));
  ac_log_between : forall k x, k < 128 -> 2 ^ k <= x <= 2 ^ (k + 1) ->
    (inject_Z (Z.of_N k) <= o_log2 O x <= inject_Z (Z.of_N (k + 1)))%Q;
  ac_log_one : (o_log2 O 1 <= 0)%Q;
  ac_add : forall x y, near (o_add O x y) (x + y);
  ac_sub : forall x y, near (o_sub O x y) (x - y)
}.

(** num / den <= 2^(e - a), for [0 <= a] and [0 <= e]. *)
Definition at_most_2_pow_minus (num den : N) (a e : Q) : Prop :=
  num ^ (Npos (Qden a) * Npos (Qden e)) * 2 ^ (Z.to_N (Qnum a) * Npos (Qden e)) <=
  den ^ (Npos (Qden a) * Npos (Qden e)) * 2 ^ (Z.to_N (Qnum e) * Npos (Qden a)).
(** The error of the security level. *)
Definition slack : Q := 1 # (2 ^ 40).

(** A tuple whose last [n] elements are IntModN<m>, or one such element. *)
Definition no_mod (t : cty) : bool := forallb (fun l => match l with TMod _ _ => false | _ => true end) (leaves t).
Inductive mods_last (w m : N) : nat -> cty -> Prop :=
| ml_mod : mods_last w m 1 (TMod w m)
| ml_tup : forall others k, Forall (fun t => no_mod t = true) others -> mods_last w m (S k) (TTup (others ++ repeat (TMod w m) (S k))).

(** The security parameter of a level: 40 + log_domain_size if unset. *)
Definition security_of (p : param) (q : Q) : Prop :=
  exists s, p_sec p = DFin s /\ q = if Qeq_bool s 0 then inject_Z (40 + p_ld p) else s.
