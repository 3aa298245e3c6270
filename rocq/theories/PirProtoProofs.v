(** One-time pads, masking, and the Leader and Helper protocol (C34-C36). *)
From Coq Require Import List NArith ZArith Lia Bool ZifyBool ZifyNat ZifyN.
From Verif Require Import Base ListUtil ValueTypesModel ValueTypesProofs DpfModel PirDbModel PirSpec PirDbProofs
  PirModel PirProtoSpec.
Import ListNotations.
Ltac Zify.zify_post_hook ::= Z.div_mod_to_equations.
Open Scope N_scope.

(** ** The counter *)
Lemma inc_le_encode : forall n x, inc_le (le_encode n x) = le_encode n (x + 1).
Proof.
  induction n as [|n IH]; intros x; cbn [le_encode inc_le]; [reflexivity|].
  destruct (N.eqb_spec (x mod 256) 255).
  - rewrite IH. f_equal; [lia|]. f_equal. lia.
  - f_equal; [lia|]. f_equal. lia.
Qed.
Lemma le_encode_mod : forall n x, le_encode n (x mod 256 ^ N.of_nat n) = le_encode n x.
Proof.
  induction n as [|n IH]; intros x; [reflexivity|]. cbn [le_encode].
  replace (256 ^ N.of_nat (S n)) with (256 * 256 ^ N.of_nat n) by (rewrite Nat2N.inj_succ, N.pow_succ_r'; reflexivity).
  assert (256 ^ N.of_nat n <> 0) by (apply N.pow_nonzero; discriminate).
  rewrite N.mod_mul_r by (discriminate || assumption).
  generalize dependent (256 ^ N.of_nat n). intros m IH Hm. f_equal.
  - rewrite (N.mul_comm 256), N.mod_add by discriminate. apply N.mod_mod. discriminate.
  - rewrite (N.mul_comm 256), N.div_add by discriminate. rewrite (N.div_small (x mod 256)) by (apply N.mod_lt; discriminate).
    apply IH.
Qed.
Lemma counter_inc : forall nonce j, ctr_inc (counter_block nonce j) = counter_block nonce (j + 1).
Proof.
  intros nonce j. unfold ctr_inc, counter_block. rewrite rev_involutive, inc_le_encode. f_equal.
  change (2 ^ 128) with (256 ^ N.of_nat 16). rewrite <- (le_encode_mod 16 (_ + 1)), N.add_mod_idemp_l, le_encode_mod by (vm_compute; discriminate).
  rewrite le_encode_mod. f_equal. lia.
Qed.
Lemma counter_0 : forall nonce, length nonce = 16%nat -> is_bytes nonce -> counter_block nonce 0 = nonce.
Proof.
  intros nonce HL HB. unfold counter_block. rewrite N.add_0_r. change (2 ^ 128) with (256 ^ N.of_nat 16). rewrite le_encode_mod.
  rewrite <- (rev_length nonce) in HL. rewrite <- HL, le_encode_decode; [apply rev_involutive|].
  apply Forall_rev. assumption.
Qed.

(** ** The key stream *)
Section Stream.
Variable aes : N -> N -> N.
Variables seed nonce : bytes.

Definition ecount_at (i : nat) : bytes := aes_block aes seed (counter_block nonce (N.of_nat (Nat.div i 16))).
Record at_pos (i : nat) (p : prng) : Prop := {
  ap_key : pr_key p = seed;
  ap_num : pr_num p = Nat.modulo i 16;
  ap_ivec : pr_ivec p = counter_block nonce (N.of_nat (Nat.div (i + 15) 16));
  ap_ecount : Nat.modulo i 16 <> 0%nat -> pr_ecount p = ecount_at i
}.
Lemma random_bytes_ok : forall n i p, at_pos i p ->
  exists p', random_bytes aes n p = Ok (map (keystream aes seed nonce) (seq i n), p') /\ at_pos (i + n) p'.
Proof.
  induction n as [|n IH]; intros i p [H1 H2 H3 H4].
  - exists p. cbn [random_bytes seq map]. rewrite Nat.add_0_r. split; [reflexivity|]. split; auto.
  - cbn [random_bytes seq map].
    set (p1 := if Nat.eqb (pr_num p) 0 then _ else p).
    assert (HP : pr_key p1 = seed /\ pr_num p1 = Nat.modulo i 16 /\ pr_ecount p1 = ecount_at i /\
                 pr_ivec p1 = counter_block nonce (N.of_nat (Nat.div (i + 1 + 15) 16))).
    { unfold p1. destruct (Nat.eqb_spec (pr_num p) 0) as [E|E]; cbn [pr_key pr_num pr_ecount pr_ivec].
      - rewrite H1. split; [reflexivity|]. split; [lia|]. rewrite H3. split.
        + unfold ecount_at. do 3 f_equal. lia.
        + rewrite counter_inc. f_equal. lia.
      - split; [assumption|]. split; [assumption|]. split; [apply H4; lia|]. rewrite H3. do 2 f_equal. lia. }
    destruct HP as (K1 & K2 & K3 & K4). rewrite K2, K3.
    assert (HB : at_or_ub (ecount_at i) (Nat.modulo i 16) = Ok (keystream aes seed nonce i)).
    { unfold at_or_ub. destruct (nth_error (ecount_at i) (Nat.modulo i 16)) as [b|] eqn:E.
      - f_equal. symmetry. unfold keystream. apply nth_error_nth. exact E.
      - apply nth_error_None in E. unfold ecount_at, aes_block in E. rewrite le_encode_length in E. lia. }
    rewrite HB. cbn [bind].
    match goal with |- context [random_bytes aes n ?q] => destruct (IH (S i) q) as (p' & E & HA) end.
    { split; cbn [pr_key pr_num pr_ivec pr_ecount].
      - assumption.
      - clear. lia.
      - rewrite K4. do 2 f_equal. lia.
      - intros HM. unfold ecount_at. do 3 f_equal. clear - HM. lia. }
    rewrite E. cbn [bind]. rewrite N.lxor_0_l. exists p'. split; [reflexivity|]. replace (i + S n)%nat with (S i + n)%nat by lia. assumption.
Qed.

Lemma random_strings_ok : forall ls i p, at_pos i p ->
  exists outs, random_strings aes p ls = Ok outs /\ map (@length N) outs = ls /\
    concat outs = map (keystream aes seed nonce) (seq i (list_sum ls)).
Proof.
  induction ls as [|n ls IH]; intros i p HA; cbn [random_strings].
  - exists []. auto.
  - destruct (random_bytes_ok n i p HA) as (p' & E & HA'). rewrite E. cbn [bind].
    destruct (IH _ _ HA') as (outs & E1 & E2 & E3). rewrite E1. cbn [bind]. eexists. split; [reflexivity|].
    cbn [map concat]. rewrite map_length, seq_length, E2, E3. split; [reflexivity|].
    change (list_sum (n :: ls)) with (n + list_sum ls)%nat. rewrite seq_app, map_app. reflexivity.
Qed.
Lemma create_at : forall p, prng_create_with_nonce seed nonce = Ok p -> is_bytes nonce -> at_pos 0 p.
Proof.
  intros p H HB. unfold prng_create_with_nonce in H. bind_inv H. bind_inv H.
  apply check_ok in Hb, Hb0. apply Nat.eqb_eq in Hb, Hb0. inversion H; subst p. split; cbn [pr_key pr_num pr_ivec]; auto.
  - symmetry. apply counter_0; [congruence|assumption].
  - intros HX. exfalso. apply HX. reflexivity.
Qed.
End Stream.

(** ** Masking *)
Lemma zeros_bytes : is_bytes (repeat 0 16).
Proof. repeat constructor. Qed.
Lemma mask_all_ok : forall aes seed l i p, at_pos aes seed (repeat 0 16) i p ->
  mask_all aes p l = Ok (xor_lists l (pads aes seed i (map (@length N) l))).
Proof.
  intros aes seed. induction l as [|r l IH]; intros i p HA; cbn [mask_all map pads].
  - reflexivity.
  - destruct (random_bytes_ok aes seed (repeat 0 16) (length r) i p HA) as (p' & E & HA'). rewrite E. cbn [bind].
    rewrite (IH _ _ HA'). reflexivity.
Qed.
Lemma prng_create_iff : forall seed, prng_create seed =
  if Nat.eqb (length seed) 16 then Ok {| pr_key := seed; pr_ivec := repeat 0 16; pr_ecount := repeat 0 16; pr_num := 0 |}
  else Err INVALID_ARGUMENT.
Proof.
  intros seed. unfold prng_create, prng_create_with_nonce. destruct (Nat.eqb_spec (length seed) 16) as [E|E]; cbn [check bind]; [|reflexivity].
  rewrite E. reflexivity.
Qed.
Lemma mask_created : forall aes seed l, length seed = 16%nat ->
  (p <- prng_create seed ;; mask_all aes p l) = Ok (xor_lists l (pads aes seed 0 (map (@length N) l))).
Proof.
  intros aes seed l H. destruct (prng_create seed) as [p|e| |] eqn:E; rewrite prng_create_iff, H in E; try discriminate.
  cbn [bind]. apply mask_all_ok. apply create_at; [|exact zeros_bytes]. rewrite <- E. unfold prng_create_with_nonce. rewrite H. reflexivity.
Qed.
Lemma pads_shape : forall aes seed ls i, map (@length N) (pads aes seed i ls) = ls.
Proof. intros aes seed. induction ls as [|n ls IH]; intros i; cbn [pads map]; [reflexivity|]. rewrite map_length, seq_length, IH. reflexivity. Qed.

Lemma bxor_assoc : forall a b c, bxor (bxor a b) c = bxor a (bxor b c).
Proof. induction a as [|x a IH]; intros [|y b] [|z c]; cbn [bxor]; try reflexivity. rewrite IH, N.lxor_assoc. reflexivity. Qed.
Lemma bxor_comm : forall a b, bxor a b = bxor b a.
Proof. induction a as [|x a IH]; intros [|y b]; cbn [bxor]; try reflexivity. rewrite IH, N.lxor_comm. reflexivity. Qed.
Lemma bxor_self : forall a b, length a = length b -> bxor (bxor a b) b = a.
Proof.
  induction a as [|x a IH]; intros [|y b] H; cbn [bxor length] in *; try discriminate; [reflexivity|].
  rewrite IH by lia. rewrite N.lxor_assoc, N.lxor_nilpotent, N.lxor_0_r. reflexivity.
Qed.
Lemma xor_lists_cons : forall x a y b, xor_lists (x :: a) (y :: b) = bxor x y :: xor_lists a b.
Proof. reflexivity. Qed.
Lemma xor_lists_self : forall a b, same_shape a b -> xor_lists (xor_lists a b) b = a.
Proof.
  unfold same_shape. induction a as [|x a IH]; intros [|y b] H; cbn [map] in H; try discriminate; [reflexivity|].
  inversion H. rewrite !xor_lists_cons, bxor_self, IH by assumption. reflexivity.
Qed.
Lemma xor_lists_assoc : forall a b c, xor_lists (xor_lists a b) c = xor_lists a (xor_lists b c).
Proof.
  induction a as [|x a IH]; intros [|y b] [|z c]; try reflexivity. rewrite !xor_lists_cons, bxor_assoc, IH. reflexivity.
Qed.
Lemma xor_lists_shape : forall a b, same_shape a b -> same_shape (xor_lists a b) a.
Proof.
  unfold same_shape. induction a as [|x a IH]; intros [|y b] H; cbn [map] in H; try discriminate; [reflexivity|].
  inversion H. rewrite xor_lists_cons. cbn [map]. rewrite IH, bxor_length by assumption. f_equal. lia.
Qed.
Lemma same_shape_sym : forall a b, same_shape a b -> same_shape b a.
Proof. unfold same_shape. congruence. Qed.
Lemma same_shape_trans : forall a b c, same_shape a b -> same_shape b c -> same_shape a c.
Proof. unfold same_shape. congruence. Qed.

(** ** Combining *)
Lemma combine_ok : forall h l out, length h = length l -> combine_responses h l = Ok out ->
  same_shape l h /\ out = xor_lists l h.
Proof.
  unfold same_shape. induction h as [|x h IH]; intros [|y l] out HL H; cbn [length combine_responses] in *; try discriminate.
  - inversion H. auto.
  - bind_inv H. apply check_ok in Hb. apply Nat.eqb_eq in Hb. bind_inv H. inversion H; subst.
    destruct (IH l a0) as [E1 E2]; [lia|assumption|]. split; [cbn [map]; congruence|]. rewrite xor_lists_cons. congruence.
Qed.
Lemma combine_same : forall h l, same_shape l h -> combine_responses h l = Ok (xor_lists l h).
Proof.
  unfold same_shape. induction h as [|x h IH]; intros [|y l] H; cbn [map combine_responses] in *; try discriminate; [reflexivity|].
  inversion H. rewrite H1, Nat.eqb_refl. cbn [check bind]. rewrite IH by assumption. reflexivity.
Qed.
Lemma combine_mismatch : forall h l, length h = length l -> ~ same_shape l h -> combine_responses h l = Err INTERNAL.
Proof.
  unfold same_shape. induction h as [|x h IH]; intros [|y l] HL H; cbn [map length combine_responses] in *; try discriminate.
  - exfalso. auto.
  - destruct (Nat.eqb_spec (length x) (length y)); cbn [check bind]; [|reflexivity].
    rewrite IH; [reflexivity|lia|]. intros E. apply H. congruence.
Qed.
