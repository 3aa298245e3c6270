(** Property C76: conversion of bytes to integers. *)
From Coq Require Import List NArith ZArith Lia Bool ZifyBool ZifyNat ZifyN.
From Verif Require Import Base ListUtil ValueTypesModel ValueTypesProofs ConvProofs ConvSurj SampleJoint EndianModel.
Import ListNotations.
Open Scope N_scope.
Ltac Zify.zify_post_hook ::= Z.div_mod_to_equations.

(** The number whose byte [i] is [b[i]]. *)
Definition little_endian (b : bytes) : N := fold_right (fun i s => nth i b 0 * 256 ^ N.of_nat i + s) 0 (seq 0 (length b)).
Lemma little_cons : forall x b, little_endian (x :: b) = x + 256 * little_endian b.
Proof.
  intros x b. unfold little_endian. cbn [length seq fold_right nth]. change (256 ^ N.of_nat 0) with 1. rewrite N.mul_1_r. f_equal.
  rewrite <- seq_shift. generalize (seq 0 (length b)). intros l. induction l as [|i l IH]; cbn [map fold_right nth]; [reflexivity|].
  rewrite IH, N.mul_add_distr_l, Nat2N.inj_succ, N.pow_succ_r'. f_equal. clear. nia.
Qed.
Lemma decode_little : forall b, bytes_ok b -> le_decode b = little_endian b.
Proof.
  induction b as [|x b IH]; intros H; [reflexivity|]. fcons H Hx Hb. rewrite little_cons. cbn [le_decode]. rewrite IH by exact Hb.
  rewrite N.mod_small by exact Hx. reflexivity.
Qed.

(** On little-endian hosts the conversion is what its comment says. *)
Theorem C76_little_partial : forall w b, bytes_ok b -> length b = nbytes w -> int_from_bytes w b = Ok (little_endian b).
Proof. intros w b H L. unfold int_from_bytes. rewrite L, Nat.eqb_refl. cbn [abort_unless bind]. rewrite decode_little by exact H. reflexivity. Qed.
Print Assumptions C76_little_partial.

Lemma width_8 : forall w, cwidth_ok w = true -> exists k, w = 8 * k /\ 0 < k.
Proof. intros w H. apply cwidth_cases in H. exists (w / 8). destruct H as [->|[->|[->|[->| ->]]]]; split; reflexivity. Qed.
Lemma pow8 : forall w, cwidth_ok w = true -> exists c, 2 ^ w = 256 * c /\ 0 < c.
Proof.
  intros w H. apply width_8 in H. destruct H as (k & -> & Hk). exists (2 ^ (8 * k - 8)). split.
  - change 256 with (2 ^ 8). rewrite <- N.pow_add_r. f_equal. lia.
  - apply N.neq_0_lt_0. apply N.pow_nonzero. discriminate.
Qed.
Lemma shift_loop_spec : forall w b, cwidth_ok w = true -> shift_loop w b = (256 * le_decode b) mod 2 ^ w.
Proof.
  intros w b Hw. destruct (pow8 w Hw) as (c & Ec & Hc).
  assert (M : forall z, (256 * z) mod 2 ^ w = 256 * (z mod c)) by (intros z; rewrite Ec; apply N.mul_mod_distr_l; lia).
  induction b as [|x b IH]; cbn [shift_loop le_decode]; [rewrite M, N.mod_0_l by lia; reflexivity|].
  rewrite IH, M. replace (256 * (le_decode b mod c)) with (le_decode b mod c * 2 ^ 8) by (change (2 ^ 8) with 256; lia).
  rewrite lor_add by (change (2 ^ 8) with 256; apply N.mod_lt; discriminate). rewrite N.shiftl_mul_pow2.
  change (2 ^ 8) with 256. replace ((le_decode b mod c * 256 + x mod 256) * 256) with (256 * (x mod 256 + 256 * (le_decode b mod c))) by lia.
  rewrite !M. f_equal. rewrite <- (N.add_mod_idemp_r (x mod 256) (256 * (le_decode b mod c))) by lia.
  rewrite N.mul_mod_idemp_r by lia. apply N.add_mod_idemp_r. lia.
Qed.

(** On other hosts the number is shifted once too often: the last byte is lost. *)
Theorem C76_big_exact : forall w b, cwidth_ok w = true -> bytes_ok b -> length b = nbytes w ->
  int_from_bytes_big w b = Ok ((256 * little_endian b) mod 2 ^ w).
Proof.
  intros w b Hw H L. unfold int_from_bytes_big. rewrite L, Nat.eqb_refl. cbn [abort_unless bind].
  rewrite shift_loop_spec, decode_little by assumption. reflexivity.
Qed.
Print Assumptions C76_big_exact.
Theorem C76_big_refuted : forall w, cwidth_ok w = true -> exists b, bytes_ok b /\ length b = nbytes w /\
  int_from_bytes_big w b <> Ok (little_endian b).
Proof.
  intros w Hw. assert (L : exists k, nbytes w = S k).
  { apply cwidth_cases in Hw. destruct Hw as [->|[->|[->|[->| ->]]]]; eexists; reflexivity. }
  destruct L as [k Lk]. exists (1 :: repeat 0 k). assert (B : bytes_ok (1 :: repeat 0 k)).
  { constructor; [reflexivity|]. apply Forall_forall. intros x Hx. apply repeat_spec in Hx. subst. reflexivity. }
  assert (LL : length (1 :: repeat 0 k) = nbytes w) by (cbn [length]; rewrite repeat_length; congruence).
  split; [exact B|]. split; [exact LL|]. rewrite C76_big_exact by assumption.
  rewrite little_cons. replace (little_endian (repeat 0 k)) with 0.
  2: { clear. induction k as [|k IH]; [reflexivity|]. cbn [repeat]. rewrite little_cons, <- IH. reflexivity. }
  intros E. inversion E as [E']. destruct (pow8 w Hw) as (c & Ec & Hc). rewrite Ec, N.mul_mod_distr_l in E' by lia. lia.
Qed.
Print Assumptions C76_big_refuted.

(** * What this does to value corrections *)

Definition leak (t : cty) (invert : bool) (x : N) : N :=
  match t with TInt _ => if invert then (256 - x mod 256) mod 256 else x mod 256 | _ => x mod 256 end.
Lemma convert_big : forall w b, cwidth_ok w = true -> (16 <= length b)%nat ->
  exists l, convert_integers_big w b = Ok l /\ length l = N.to_nat (128 / w) /\ Forall (fun x => x mod 256 = 0 /\ x < 2 ^ w) l.
Proof.
  intros w b Hw Hb. unfold convert_integers_big.
  assert (S16 : (N.to_nat (128 / w) * nbytes w = 16)%nat) by (apply cwidth_cases in Hw; destruct Hw as [->|[->|[->|[->| ->]]]]; reflexivity).
  destruct (Nat.leb_spec (N.to_nat (128 / w) * nbytes w) (length b)) as [_|C]; [|lia]. cbn [abort_unless bind].
  assert (HM : forall i, In i (seq 0 (N.to_nat (128 / w))) ->
    (sub <- substr b (i * nbytes w) (nbytes w) ;; int_from_bytes_big w sub) = Ok (shift_loop w (firstn (nbytes w) (skipn (i * nbytes w) b)))).
  { intros i Hi. apply in_seq in Hi. rewrite substr_ok by nia. cbn [bind]. unfold int_from_bytes_big.
    rewrite firstn_length, skipn_length, Nat.min_l by nia. rewrite Nat.eqb_refl. reflexivity. }
  rewrite (mapM_map_ok _ _ _ _ _ HM). eexists. split; [reflexivity|]. split; [rewrite map_length, seq_length; reflexivity|].
  apply Forall_forall. intros x Hx. apply in_map_iff in Hx. destruct Hx as (i & <- & _). rewrite shift_loop_spec by exact Hw.
  destruct (pow8 w Hw) as (c & Ec & Hc). split.
  - rewrite Ec, N.mul_mod_distr_l by lia. rewrite N.mul_comm. apply N.mod_mul. discriminate.
  - apply N.mod_lt. lia.
Qed.
Lemma mod256 : forall w z, cwidth_ok w = true -> (z mod 2 ^ w) mod 256 = z mod 256.
Proof.
  intros w z Hw. destruct (pow8 w Hw) as (c & Ec & Hc). rewrite Ec.
  pose proof (N.div_mod z (256 * c) ltac:(lia)) as D. set (q := z / (256 * c)) in *. set (r := z mod (256 * c)) in *.
  rewrite D. replace (256 * c * q + r) with (r + (c * q) * 256) by lia. rewrite N.mod_add by discriminate. reflexivity.
Qed.
Definition nadd (t : cty) (x y : N) : N := match t with TInt w => (x + y) mod 2 ^ w | _ => N.lxor x y end.
Definition nsub (t : cty) (x y : N) : N := match t with TInt w => (x + (2 ^ w - y mod 2 ^ w)) mod 2 ^ w | _ => N.lxor x y end.
Definition nneg (t : cty) (x : N) : N := match t with TInt w => (2 ^ w - x mod 2 ^ w) mod 2 ^ w | _ => x end.
Lemma set_nth_map : forall (A B : Type) (f : A -> B) l i x, set_nth (map f l) i (f x) = map f (set_nth l i x).
Proof. intros A B f. induction l as [|y l IH]; intros [|i] x; cbn [map set_nth]; try reflexivity. rewrite IH. reflexivity. Qed.
Lemma zip2_nums : forall (F : cval -> cval -> cval) (f : N -> N -> N), (forall b a, F (VNum b) (VNum a) = VNum (f b a)) ->
  forall lb la, zip2 F (map VNum lb) (map VNum la) = map VNum (zip2 f lb la).
Proof. intros F f H. induction lb as [|b lb IH]; intros [|a la]; cbn [map zip2]; try reflexivity. rewrite H, IH. reflexivity. Qed.
Lemma nth_zip2 : forall (f : N -> N -> N) lb la i, length lb = length la -> (i < length lb)%nat -> nth i (zip2 f lb la) 0 = f (nth i lb 0) (nth i la 0).
Proof.
  intros f. induction lb as [|b lb IH]; intros [|a la] i L H; cbn [length] in *; try lia. destruct i as [|i]; cbn [zip2 nth]; [reflexivity|].
  apply IH; lia.
Qed.
Lemma nth_set_num : forall (l : list N) i x j, (i < length l)%nat -> nth j (set_nth l i x) 0 = if Nat.eqb j i then x else nth j l 0.
Proof.
  induction l as [|y l IH]; intros [|i] x j H; cbn [length] in H; try lia; destruct j as [|j]; cbn [set_nth nth Nat.eqb]; try reflexivity.
  apply IH. lia.
Qed.
Lemma set_len : forall (l : list N) i x, length (set_nth l i x) = length l.
Proof. induction l as [|y l IH]; intros [|i] x; cbn [set_nth length]; auto. Qed.
Lemma zip2_len : forall (f : N -> N -> N) lb la, length lb = length la -> length (zip2 f lb la) = length lb.
Proof. intros f. induction lb as [|b lb IH]; intros [|a la] L; cbn [length zip2] in *; try lia. rewrite IH; lia. Qed.
Lemma lxor_low : forall x y, (N.lxor x y) mod 256 = N.lxor (x mod 256) (y mod 256).
Proof.
  intros x y. change 256 with (2 ^ 8). rewrite <- !N.land_ones. apply N.bits_inj. intros i.
  rewrite N.land_spec, !N.lxor_spec, !N.land_spec. destruct (N.testbit x i), (N.testbit y i), (N.testbit (N.ones 8) i); reflexivity.
Qed.
Lemma nsub_low : forall t w b a, t = TInt w \/ t = TXor w -> cwidth_ok w = true -> a mod 256 = 0 -> (nsub t b a) mod 256 = b mod 256.
Proof.
  intros t w b a Ht Hw Ha. destruct Ht as [-> | ->]; cbn [nsub].
  - rewrite mod256 by exact Hw. pose proof (mod256 w a Hw) as M. rewrite Ha in M. destruct (pow8 w Hw) as (c & Ec & Hc).
    assert (Hlt : a mod 2 ^ w < 2 ^ w) by (apply N.mod_lt; lia). set (r := a mod 2 ^ w) in *.
    assert (E : exists q, 2 ^ w - r = q * 256).
    { exists (c - r / 256). pose proof (N.div_mod r 256 ltac:(discriminate)). rewrite Ec in Hlt |- *. lia. }
    destruct E as [q ->]. apply N.mod_add. discriminate.
  - rewrite lxor_low, Ha, N.lxor_0_r. reflexivity.
Qed.
Lemma nneg_low : forall t w b, t = TInt w \/ t = TXor w -> cwidth_ok w = true -> (nneg t b) mod 256 = leak t true b.
Proof.
  intros t w b Ht Hw. destruct Ht as [-> | ->]; cbn [nneg leak]; [|reflexivity].
  rewrite mod256 by exact Hw. rewrite <- (mod256 w b Hw). destruct (pow8 w Hw) as (c & Ec & Hc).
  assert (Hlt : b mod 2 ^ w < 2 ^ w) by (apply N.mod_lt; lia). set (r := b mod 2 ^ w) in *.
  pose proof (N.div_mod r 256 ltac:(discriminate)) as D. pose proof (N.mod_lt r 256 ltac:(discriminate)) as L. set (q := r / 256) in *. set (s := r mod 256) in *.
  replace (2 ^ w - r) with ((256 - s) + (c - q - 1) * 256) by (rewrite Ec in Hlt |- *; nia). apply N.mod_add. discriminate.
Qed.
Lemma nadd_low : forall t w b x, t = TInt w \/ t = TXor w -> cwidth_ok w = true -> b mod 256 = 0 -> (nadd t b x) mod 256 = x mod 256.
Proof.
  intros t w b x Ht Hw Hb. destruct Ht as [-> | ->]; cbn [nadd].
  - rewrite mod256 by exact Hw. rewrite <- N.add_mod_idemp_l, Hb by discriminate. reflexivity.
  - rewrite lxor_low, Hb. apply N.lxor_0_l.
Qed.

(** Hence the low byte of every value correction is that of (plus or minus) beta at the index of alpha in its block, and
    zero elsewhere, whatever the seeds are: for 8-bit types a single key contains beta and the low bits of alpha. *)
Theorem C76_leak_refuted : forall t w seed_a seed_b index beta x invert, t = TInt w \/ t = TXor w -> cwidth_ok w = true ->
  (16 <= length seed_a)%nat -> (16 <= length seed_b)%nat -> (index < N.to_nat (128 / w))%nat -> from_value t beta = Ok (VNum x) ->
  exists ys, compute_value_correction_big t w seed_a seed_b index beta invert = Ok (map (fun y => to_value t (VNum y)) ys) /\
    length ys = N.to_nat (128 / w) /\
    forall i, (i < N.to_nat (128 / w))%nat -> nth i ys 0 mod 256 = if Nat.eqb i index then leak t invert x else 0.
Proof.
  intros t w sa sb index beta x invert Ht Hw La Lb Hi HB.
  destruct (convert_big w sa Hw La) as (la & Ea & LLa & Fa). destruct (convert_big w sb Hw Lb) as (lb & Eb & LLb & Fb).
  unfold compute_value_correction_big. rewrite HB, Ea, Eb. cbn [bind]. unfold at_or_ub.
  rewrite (nth_error_nth' lb 0) by (rewrite LLb; exact Hi). cbn [bind].
  assert (EA : vadd t (VNum (nth index lb 0)) (VNum x) = VNum (nadd t (nth index lb 0) x)) by (destruct Ht as [-> | ->]; reflexivity).
  rewrite EA, set_nth_map. set (lb' := set_nth lb index (nadd t (nth index lb 0) x)).
  set (f := fun b a => let d := nsub t b a in if invert then nneg t d else d).
  rewrite (zip2_nums _ f). 2: { intros b a. unfold f. destruct Ht as [-> | ->], invert; reflexivity. }
  assert (LB' : length lb' = length lb).
  { unfold lb'. apply set_len. }
  exists (zip2 f lb' la). rewrite map_map. split; [reflexivity|]. rewrite zip2_len by congruence. split; [congruence|].
  intros i Hlt. rewrite nth_zip2 by (try congruence; rewrite LB', LLb; exact Hlt).
  assert (Na : nth i la 0 mod 256 = 0) by (rewrite Forall_forall in Fa; apply Fa, nth_In; rewrite LLa; exact Hlt).
  assert (Nb : nth i lb 0 mod 256 = 0) by (rewrite Forall_forall in Fb; apply Fb, nth_In; rewrite LLb; exact Hlt).
  assert (Ni : nth index lb 0 mod 256 = 0) by (rewrite Forall_forall in Fb; apply Fb, nth_In; rewrite LLb; exact Hi).
  assert (E : (nth i lb' 0) mod 256 = if Nat.eqb i index then x mod 256 else 0).
  { unfold lb'. rewrite nth_set_num by (rewrite LLb; exact Hi). destruct (Nat.eqb i index); [|exact Nb]. apply nadd_low with (w := w); assumption. }
  unfold f. cbv zeta. destruct invert.
  - rewrite (nneg_low t w) by assumption.
    assert (LK : forall u v, u mod 256 = v mod 256 -> leak t true u = leak t true v) by (intros u v Euv; destruct Ht as [-> | ->]; cbn [leak]; rewrite Euv; reflexivity).
    rewrite (LK _ (nth i lb' 0)) by (apply nsub_low with (w := w); assumption).
    destruct (Nat.eqb i index).
    + apply LK. exact E.
    + rewrite (LK _ 0) by (rewrite E; reflexivity). destruct Ht as [-> | ->]; reflexivity.
  - rewrite nsub_low with (w := w) by assumption. rewrite E. destruct (Nat.eqb i index); [|reflexivity]. destruct Ht as [-> | ->]; reflexivity.
Qed.
Print Assumptions C76_leak_refuted.

(** The byte string 1, 2, ..., 16 on both kinds of hosts, and a correction for uint8_t made of any seeds. *)
Definition xi_bytes (k : N) : bytes := map (fun i => (N.of_nat i * k + 1) mod 256) (seq 0 16).
Example C76_nonvacuous :
  int_from_bytes 32 [1; 2; 3; 4] = Ok 0x04030201 /\ int_from_bytes_big 32 [1; 2; 3; 4] = Ok 0x03020100 /\
  int_from_bytes_big 8 [77] = Ok 0 /\ from_value (TInt 8) (PVInteger (VI64 42)) = Ok (VNum 42) /\
  compute_value_correction_big (TInt 8) 8 (xi_bytes 5) (xi_bytes 91) 3 (PVInteger (VI64 42)) false
  = Ok (map (fun y => PVInteger (VI64 y)) [0; 0; 0; 42; 0; 0; 0; 0; 0; 0; 0; 0; 0; 0; 0; 0]) /\
  compute_value_correction_big (TInt 8) 8 (xi_bytes 7) (xi_bytes 33) 3 (PVInteger (VI64 42)) true
  = Ok (map (fun y => PVInteger (VI64 y)) [0; 0; 0; 214; 0; 0; 0; 0; 0; 0; 0; 0; 0; 0; 0; 0]) /\
  compute_value_correction_for (TInt 8) (xi_bytes 5) (xi_bytes 91) 3 (PVInteger (VI64 42)) false
  <> compute_value_correction_for (TInt 8) (xi_bytes 7) (xi_bytes 33) 3 (PVInteger (VI64 42)) false.
Proof. do 6 (split; [vm_compute; reflexivity|]). vm_compute. discriminate. Qed.
