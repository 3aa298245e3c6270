(** Specification vocabulary for the PIR properties (C30-C36). *)
From Coq Require Import List NArith ZArith Bool.
From Verif Require Import Base ValueTypesModel PirDbModel.
Import ListNotations.
Open Scope N_scope.

Definition is_bytes (b : bytes) : Prop := Forall (fun x => x < 256) b.

(** Bit [idx] of a selection vector packed into 128-bit blocks. *)
Definition selected (blocks : list N) (idx : nat) : bool :=
  N.testbit (nth (Nat.div idx 128) blocks 0) (N.of_nat (Nat.modulo idx 128)).
Definition xor_all (l : list N) : N := fold_right N.lxor 0 l.
(** The byte-wise XOR of the selected records, zero-padded to [size] bytes. *)
Definition selected_xor (records : list bytes) (size : nat) (blocks : list N) : bytes :=
  map (fun p => xor_all (map (fun idx => if selected blocks idx then nth p (nth idx records []) 0 else 0)
                             (seq 0 (length records))))
      (seq 0 size).

(** What hwy guarantees about a target: the recursion of XorPartialString reaches single
    bytes, the alignment is a multiple of the vector size, and AllocateAligned returns
    aligned buffers. *)
Record target_ok (t : target) : Prop := {
  tok_depth : (t_log_lanes t <= t_depth t)%nat;
  tok_align : t_align t mod 2 ^ N.of_nat (t_log_lanes t) = 0;
  tok_pos : 0 < t_align t;
  tok_haddr : forall k, t_haddr t k mod t_align t = 0
}.

(** ** Histories of dense database builders (C31) *)

(** Calls on a growing list of builders; Build carries what the allocator does during it. *)
Inductive bop :=
| BNew
| BInsert (i : nat) (v : bytes)
| BClear (i : nat)
| BClone (i : nat)
| BBuild (i : nat) (a : alloc).

Definition bstep (bs : list builder) (o : bop) : option (res db) * list builder :=
  match o with
  | BNew => (None, bs ++ [new_builder])
  | BInsert i v => (None, match nth_error bs i with Some b => set_nth bs i (insert b v) | None => bs end)
  | BClear i => (None, match nth_error bs i with Some b => set_nth bs i (clear b) | None => bs end)
  | BClone i => (None, match nth_error bs i with Some b => bs ++ [clone b] | None => bs end)
  | BBuild i a =>
      match nth_error bs i with
      | Some b => let '(r, b') := build a b in (Some r, set_nth bs i b')
      | None => (None, bs)
      end
  end.
Fixpoint brun (bs : list builder) (ops : list bop) : list (option (res db)) :=
  match ops with [] => [] | o :: ops' => let '(r, bs') := bstep bs o in r :: brun bs' ops' end.

(** The abstract builder: the values inserted since creation or the last Clear and
    whether it was built since then. *)
Record gbuilder := { g_vals : list bytes; g_built : bool }.
Inductive gout := GNone | GRecords (vs : list bytes) | GAlready.
Definition gstep (gs : list gbuilder) (o : bop) : gout * list gbuilder :=
  match o with
  | BNew => (GNone, gs ++ [{| g_vals := []; g_built := false |}])
  | BInsert i v =>
      (GNone, match nth_error gs i with
              | Some g => set_nth gs i {| g_vals := g_vals g ++ [v]; g_built := g_built g |} | None => gs end)
  | BClear i =>
      (GNone, match nth_error gs i with
              | Some _ => set_nth gs i {| g_vals := []; g_built := false |} | None => gs end)
  | BClone i => (GNone, match nth_error gs i with Some g => gs ++ [g] | None => gs end)
  | BBuild i _ =>
      match nth_error gs i with
      | Some g => if g_built g then (GAlready, gs)
                  else (GRecords (g_vals g), set_nth gs i {| g_vals := g_vals g; g_built := true |})
      | None => (GNone, gs)
      end
  end.
Fixpoint grun (gs : list gbuilder) (ops : list bop) : list gout :=
  match ops with [] => [] | o :: ops' => let '(r, gs') := gstep gs o in r :: grun gs' ops' end.

Definition longest (vs : list bytes) : nat := fold_right (fun v n => Nat.max (length v) n) 0%nat vs.
Definition holds (d : db) (vs : list bytes) : Prop :=
  (exists views, content d = Ok views /\ map v_data views = vs) /\
  db_size d = length vs /\ db_max d = N.of_nat (longest vs).
Definition agrees (r : option (res db)) (g : gout) : Prop :=
  match g with
  | GNone => r = None
  | GRecords vs => exists d, r = Some (Ok d) /\ holds d vs
  | GAlready => r = Some (Err FAILED_PRECONDITION)
  end.

(** Bytes inserted over the whole history, with up to 16 bytes of overhead per value. *)
Definition op_bytes (o : bop) : N := match o with BInsert _ v => N.of_nat (length v) + 16 | _ => 0 end.
Definition history_bytes (ops : list bop) : N := fold_right (fun o n => op_bytes o + n) 0 ops.
(** std::vector::reserve provides at least the requested capacity. *)
Definition alloc_ok (a : alloc) : Prop := forall n, n <= a_cap a n.
Definition allocs_ok (ops : list bop) : Prop := forall i a, In (BBuild i a) ops -> alloc_ok a.
