(** The Helper's one-time pad: what its masked reply says about the plain reply (C73). *)
From Coq Require Import List NArith ZArith Lia Bool ZifyBool ZifyNat ZifyN.
From Verif Require Import Base ListUtil ValueTypesModel ValueTypesProofs DpfModel DpfPrivacySpec DpfPrivacy DpfHide PirDbModel PirSpec PirDbProofs
  PirModel PirProtoSpec PirProtoProofs DpfExt.
Import ListNotations.
Ltac Zify.zify_post_hook ::= Z.div_mod_to_equations.
Open Scope N_scope.

(** ** Specification *)

(** (AES key, block) for the pad of [total] bytes from a seed: the seed is the AES key, and the
    blocks are the counters 0, 1, ..., one for every 16 bytes. *)
Definition pad_uses (seed : bytes) (total : nat) : list (N * N) :=
  map (fun j => (le_decode seed, le_decode (counter_block (repeat 0 16) (N.of_nat j)))) (seq 0 (Nat.div (total + 15) 16)).
(** The seed is not one of the fixed AES keys of the DPF. *)
Definition fresh_pad (seed : bytes) : Prop := ~ In (le_decode seed) [kPrgKeyLeft; kPrgKeyRight; kPrgKeyValue].
(** Lengths of the replies of a list, all together. *)
Definition total_length (l : list bytes) : nat := list_sum (map (@length N) l).

(** ** Another pad *)

(** Bytes 16j, ..., 16j + 15 of [D]. *)
Definition piece (D : bytes) (j : nat) : bytes := firstn 16 (skipn (16 * j) D).
(** The cipher whose pad from [seed] is that of [aes], XOR [D]. *)
Definition remask (seed D : bytes) (aes : N -> N -> N) : N -> N -> N := fun k x =>
  if (k =? le_decode seed) && (x <? 2 ^ 128)
  then N.lxor (aes k x) (le_decode (piece D (N.to_nat (le_decode (rev (le_encode 16 x))))))
  else aes k x.

Lemma counter_index : forall j, j < 2 ^ 128 -> le_decode (rev (le_encode 16 (le_decode (counter_block (repeat 0 16) j)))) = j.
Proof.
  intros j Hj. unfold counter_block. replace (le_decode (rev (repeat 0 16)) + j) with j by reflexivity.
  rewrite N.mod_small by exact Hj. set (b := rev (le_encode 16 j)).
  assert (Hl : length b = 16%nat) by (unfold b; rewrite rev_length; apply le_encode_length).
  rewrite <- Hl. rewrite le_encode_decode.
  - unfold b. rewrite rev_involutive, le_decode_encode. apply N.mod_small. exact Hj.
  - unfold b. apply Forall_rev. clear. generalize 16%nat. intros n. revert j. induction n as [|n IH]; intros j; cbn [le_encode]; constructor; auto.
    apply N.mod_lt. discriminate.
Qed.
Lemma counter_of_index : forall x, x < 2 ^ 128 -> le_decode (counter_block (repeat 0 16) (le_decode (rev (le_encode 16 x)))) = x.
Proof.
  intros x Hx. unfold counter_block. replace (le_decode (rev (repeat 0 16))) with 0 by reflexivity. rewrite N.add_0_l.
  set (b := rev (le_encode 16 x)).
  assert (Hl : length b = 16%nat) by (unfold b; rewrite rev_length; apply le_encode_length).
  change (2 ^ 128) with (256 ^ N.of_nat 16). rewrite le_encode_mod. rewrite <- Hl, le_encode_decode.
  - unfold b. rewrite rev_involutive, le_decode_encode. apply N.mod_small. exact Hx.
  - unfold b. apply Forall_rev. clear. generalize 16%nat. intros n. revert x. induction n as [|n IH]; intros x; cbn [le_encode]; constructor; auto.
    apply N.mod_lt. discriminate.
Qed.
Lemma counter_lt : forall nonce j, le_decode (counter_block nonce j) < 2 ^ 128.
Proof.
  intros nonce j. pose proof (le_decode_bound (counter_block nonce j)) as H. unfold counter_block in *. rewrite rev_length, le_encode_length in H. exact H.
Qed.

(** XOR on the bytes of a number. *)
Lemma byte_lxor : forall x y, N.lxor x y mod 256 = N.lxor (x mod 256) (y mod 256) /\ N.lxor x y / 256 = N.lxor (x / 256) (y / 256).
Proof.
  intros x y. change 256 with (2 ^ 8). rewrite <- !N.land_ones, <- !N.shiftr_div_pow2. split.
  - apply N.bits_inj. intros i. rewrite !N.lxor_spec, !N.land_spec, N.lxor_spec. destruct (N.testbit x i), (N.testbit y i), (N.testbit (N.ones 8) i); reflexivity.
  - apply N.bits_inj. intros i. rewrite !N.lxor_spec, !N.shiftr_spec', N.lxor_spec. reflexivity.
Qed.
Lemma encode_nth_xor : forall n i x y, (i < n)%nat -> nth i (le_encode n (N.lxor x y)) 0 = N.lxor (nth i (le_encode n x) 0) (nth i (le_encode n y) 0).
Proof.
  induction n as [|n IH]; intros i x y Hi; [lia|]. cbn [le_encode]. destruct (byte_lxor x y) as [H1 H2]. rewrite H1, H2.
  destruct i as [|i]; [reflexivity|]. cbn [nth]. apply IH. lia.
Qed.
Lemma decode_zeros : forall b k, le_decode (b ++ repeat 0 k) = le_decode b.
Proof.
  induction b as [|x b IH]; intros k; cbn [app le_decode]; [|rewrite IH; reflexivity].
  induction k as [|k IHk]; [reflexivity|]. cbn [repeat le_decode]. rewrite IHk. reflexivity.
Qed.
Lemma piece_length : forall D j, (length (piece D j) <= 16)%nat.
Proof. intros D j. unfold piece. rewrite firstn_length. lia. Qed.
Lemma piece_encode : forall D j, is_bytes D -> le_encode 16 (le_decode (piece D j)) = piece D j ++ repeat 0 (16 - length (piece D j)).
Proof.
  intros D j HD. pose proof (piece_length D j). set (b := piece D j ++ _).
  assert (Hl : length b = 16%nat) by (unfold b; rewrite app_length, repeat_length; lia).
  rewrite <- (decode_zeros _ (16 - length (piece D j))). fold b. rewrite <- Hl at 1. apply le_encode_decode.
  unfold b. apply is_bytes_app; [apply is_bytes_firstn, is_bytes_skipn, HD|]. clear. generalize (16 - length (piece D j))%nat. intros k.
  induction k as [|k IH]; constructor; [reflexivity|exact IH].
Qed.
Lemma nth_skipn_eq : forall A n (l : list A) i d, nth i (skipn n l) d = nth (n + i) l d.
Proof. intros A n. induction n as [|n IH]; intros [|x l] i d; cbn [skipn Nat.add nth]; auto. destruct i; reflexivity. Qed.
Lemma nth_firstn_lt : forall A n (l : list A) i d, (i < n)%nat -> nth i (firstn n l) d = nth i l d.
Proof. intros A n. induction n as [|n IH]; intros [|x l] i d H; cbn [firstn]; try lia; try reflexivity. destruct i; [reflexivity|]. cbn [nth]. apply IH. lia. Qed.
Lemma piece_nth : forall D j i, (i < 16)%nat -> nth i (piece D j ++ repeat 0 (16 - length (piece D j))) 0 = nth (16 * j + i) D 0.
Proof.
  intros D j i Hi. rewrite <- nth_skipn_eq. destruct (Nat.lt_ge_cases i (length (piece D j))) as [H|H].
  - rewrite app_nth1 by exact H. apply nth_firstn_lt. exact Hi.
  - rewrite app_nth2 by exact H. rewrite nth_repeat. symmetry. apply nth_overflow. unfold piece in H. rewrite firstn_length in H. lia.
Qed.

Section Remask.
Variables seed D : bytes.
Variable aes : N -> N -> N.
Hypothesis HD : is_bytes D.
Hypothesis Hlen : N.of_nat (length D) <= 2 ^ 132.

Lemma keystream_remask : forall i, (i < length D)%nat ->
  keystream (remask seed D aes) seed (repeat 0 16) i = N.lxor (keystream aes seed (repeat 0 16) i) (nth i D 0).
Proof using HD Hlen.
  intros i Hi. unfold keystream, remask. set (j := Nat.div i 16). rewrite N.eqb_refl.
  pose proof (counter_lt (repeat 0 16) (N.of_nat j)) as Hc. destruct (N.ltb_spec (le_decode (counter_block (repeat 0 16) (N.of_nat j))) (2 ^ 128)) as [_|HX]; [|lia].
  cbn [andb]. rewrite counter_index by (change (2 ^ 132) with (16 * 2 ^ 128) in Hlen; change (2 ^ 128) with 340282366920938463463374607431768211456 in *; unfold j; lia).
  rewrite Nat2N.id. rewrite encode_nth_xor by (apply Nat.mod_upper_bound; discriminate). f_equal.
  rewrite piece_encode by exact HD. rewrite piece_nth by (apply Nat.mod_upper_bound; discriminate). f_equal. unfold j. clear. lia.
Qed.
Lemma remask_agree : agree_off (pad_uses seed (length D)) aes (remask seed D aes).
Proof using.
  intros k x Hin. unfold remask. destruct (N.eqb_spec k (le_decode seed)) as [->|]; [|reflexivity].
  destruct (N.ltb_spec x (2 ^ 128)) as [Hx|]; [|reflexivity]. cbn [andb].
  set (j := N.to_nat (le_decode (rev (le_encode 16 x)))).
  destruct (Nat.lt_ge_cases (16 * j) (length D)) as [H|H].
  - exfalso. apply Hin. unfold pad_uses. apply in_map_iff. exists j. split.
    + f_equal. unfold j. rewrite N2Nat.id. apply counter_of_index. exact Hx.
    + apply in_seq. clearbody j. clear - H. lia.
  - unfold piece. rewrite skipn_all2 by exact H. rewrite firstn_nil. apply N.lxor_0_r.
Qed.
Lemma remask_blocks : on_blocks aes -> on_blocks (remask seed D aes).
Proof using.
  intros HB k x Hx. unfold remask. destruct (_ && _); [|auto]. apply lxor_bound; [auto|].
  match goal with |- le_decode (piece D ?j) < _ => pose proof (le_decode_bound (piece D j)) as H; pose proof (piece_length D j) as H1 end.
  apply (N.lt_le_trans _ _ _ H). change (2 ^ 128) with (256 ^ 16). apply N.pow_le_mono_r; [discriminate|clear - H1; lia].
Qed.
Lemma remask_prg : fresh_pad seed -> same_prg aes (remask seed D aes).
Proof using.
  intros HF k x Hk. unfold remask. destruct (N.eqb_spec k (le_decode seed)) as [->|]; [contradiction|reflexivity].
Qed.
End Remask.

Lemma remask_twice : forall seed D aes k x, remask seed D (remask seed D aes) k x = aes k x.
Proof.
  intros. unfold remask. destruct (_ && _); [|reflexivity]. rewrite N.lxor_assoc, N.lxor_nilpotent. apply N.lxor_0_r.
Qed.

(** ** The same masked replies *)
Definition difference (l1 l2 : list bytes) : bytes := bxor (concat l1) (concat l2).
Lemma nth_bxor : forall a b i, length a = length b -> nth i (bxor a b) 0 = N.lxor (nth i a 0) (nth i b 0).
Proof.
  induction a as [|x a IH]; intros [|y b] i H; cbn [bxor length] in *; try discriminate; [destruct i; reflexivity|].
  destruct i as [|i]; [reflexivity|]. cbn [nth]. apply IH. lia.
Qed.
Lemma shape_total : forall l, length (concat l) = total_length l.
Proof. unfold total_length. induction l as [|x l IH]; [reflexivity|]. cbn [concat map list_sum]. rewrite app_length, IH. reflexivity. Qed.
Lemma same_total : forall l1 l2, same_shape l1 l2 -> total_length l1 = total_length l2.
Proof. unfold same_shape, total_length. intros l1 l2 ->. reflexivity. Qed.
Lemma difference_length : forall l1 l2, same_shape l1 l2 -> length (difference l1 l2) = total_length l1.
Proof.
  intros l1 l2 H. unfold difference. rewrite bxor_length, !shape_total, <- (same_total _ _ H). apply Nat.min_id.
Qed.
Lemma is_bytes_concat : forall l, Forall is_bytes l -> is_bytes (concat l).
Proof. intros l H. induction H; cbn [concat]; [constructor|]. apply is_bytes_app; assumption. Qed.

Lemma mask_piece : forall f f' D (x y : bytes) pos, length x = length y ->
  (forall i, (i < length D)%nat -> f' i = N.lxor (f i) (nth i D 0)) -> (pos + length x <= length D)%nat ->
  (forall i, (i < length x)%nat -> nth (pos + i) D 0 = N.lxor (nth i x 0) (nth i y 0)) ->
  bxor y (map f' (seq pos (length y))) = bxor x (map f (seq pos (length x))).
Proof.
  intros f f' D. induction x as [|a x IH]; intros [|b y] pos HL Hf HP HN; cbn [length] in *; try discriminate; [reflexivity|].
  cbn [seq map bxor]. f_equal.
  - rewrite Hf by lia. specialize (HN 0%nat ltac:(lia)). cbn [nth] in HN. rewrite Nat.add_0_r in HN. rewrite HN.
    rewrite (N.lxor_comm (f pos)), (N.lxor_comm a b), <- !N.lxor_assoc, N.lxor_nilpotent, N.lxor_0_l. reflexivity.
  - apply IH; [lia|exact Hf|lia|]. intros i Hi. specialize (HN (S i) ltac:(lia)). cbn [nth] in HN. rewrite <- HN. f_equal. lia.
Qed.
Lemma mask_pieces : forall (l1 l2 : list bytes) aes aes' seed D pos, same_shape l1 l2 ->
  (forall i, (i < length D)%nat -> keystream aes' seed (repeat 0 16) i = N.lxor (keystream aes seed (repeat 0 16) i) (nth i D 0)) ->
  (pos + total_length l1 <= length D)%nat ->
  (forall i, (i < total_length l1)%nat -> nth (pos + i) D 0 = N.lxor (nth i (concat l1) 0) (nth i (concat l2) 0)) ->
  xor_lists l2 (pads aes' seed pos (map (@length N) l2)) = xor_lists l1 (pads aes seed pos (map (@length N) l1)).
Proof.
  unfold same_shape, total_length. induction l1 as [|x l1 IH]; intros [|y l2] aes aes' seed D pos HS Hf HP HN; try discriminate; [reflexivity|].
  cbn [map pads]. rewrite !xor_lists_cons. injection HS as HL HS.
  assert (ET : list_sum (map (@length N) (x :: l1)) = (length x + list_sum (map (@length N) l1))%nat) by reflexivity. rewrite ET in *.
  cbn [concat] in HN. f_equal.
  - apply (mask_piece _ _ D); [exact HL|exact Hf|lia|]. intros i Hi. rewrite HN by lia. rewrite !app_nth1 by lia. reflexivity.
  - rewrite <- HL. apply (IH l2 aes aes' seed D); [exact HS|exact Hf|lia|]. intros i Hi. rewrite <- Nat.add_assoc, HN by lia.
    rewrite !app_nth2 by lia. do 2 f_equal; lia.
Qed.

(** Whatever two lists of replies of the same sizes, the first under one cipher and the second
    under another have the same masked form; the two ciphers differ only where the pad is made. *)
Lemma masks_alike : forall aes seed (l1 l2 : list bytes), same_shape l1 l2 -> Forall is_bytes l1 -> Forall is_bytes l2 ->
  N.of_nat (total_length l1) <= 2 ^ 132 ->
  xor_lists l2 (pads (remask seed (difference l1 l2) aes) seed 0 (map (@length N) l2)) = xor_lists l1 (pads aes seed 0 (map (@length N) l1)).
Proof.
  intros aes seed l1 l2 HS H1 H2 HT. pose proof (difference_length l1 l2 HS) as HL.
  apply (mask_pieces l1 l2 _ _ _ (difference l1 l2)); [exact HS| | |].
  - intros i Hi. apply keystream_remask; [|rewrite HL; exact HT|exact Hi]. apply is_bytes_bxor; apply is_bytes_concat; assumption.
  - rewrite HL. apply Nat.le_refl.
  - intros i _. apply nth_bxor. rewrite !shape_total. apply same_total, HS.
Qed.
