(** The vectorised tree walk computes what the scalar one does. *)
From Coq Require Import List NArith ZArith Lia Bool ZifyBool ZifyNat ZifyN.
From Verif Require Import Base ListUtil ValueTypesModel DpfModel DpfTree HwyModel.
Import ListNotations.
Ltac Zify.zify_post_hook ::= Z.div_mod_to_equations.
Open Scope N_scope.

Lemma zip2_repeat_r : forall A B C (f : A -> B -> C) la b n, length la = n ->
  zip2 f la (repeat b n) = map (fun a => f a b) la.
Proof.
  intros A B C f la b n <-. induction la as [|a la IH]; [reflexivity|].
  cbn [length repeat zip2 map]. rewrite IH. reflexivity.
Qed.

(** Lengths of zips and maps. *)
Ltac zl := solve [repeat first [rewrite map_length | rewrite repeat_length
                               | rewrite zip2_length by zl]; lia].

(** * Lanes *)
Definition mlanes (bs : list bool) : mask := flat_map (fun b => [b; b]) bs.

Lemma mk128_split : forall x, mk128 (hi64 x) (lo64 x) = w128 x.
Proof. intros. unfold mk128, hi64, lo64, w128. lia. Qed.
Lemma w128_small : forall x, x < P128 -> w128 x = x.
Proof. intros. unfold w128. apply N.mod_small. auto. Qed.
Lemma w128_lt : forall x, w128 x < P128.
Proof. intros. unfold w128. lia. Qed.
Lemma lanes_length : forall l, length (lanes_of l) = (2 * length l)%nat.
Proof. induction l; cbn [lanes_of flat_map app length] in *; auto. fold (lanes_of l). lia. Qed.
Lemma mlanes_length : forall l, length (mlanes l) = (2 * length l)%nat.
Proof. induction l; cbn [mlanes flat_map app length] in *; auto. fold (mlanes l). lia. Qed.
Lemma lanes_cons : forall x l, lanes_of (x :: l) = lo64 x :: hi64 x :: lanes_of l.
Proof. reflexivity. Qed.
Lemma mlanes_cons : forall x l, mlanes (x :: l) = x :: x :: mlanes l.
Proof. reflexivity. Qed.
Lemma lanes_app : forall a b, lanes_of (a ++ b) = lanes_of a ++ lanes_of b.
Proof. intros. apply flat_map_app. Qed.
Lemma mlanes_app : forall a b, mlanes (a ++ b) = mlanes a ++ mlanes b.
Proof. intros. apply flat_map_app. Qed.
Lemma blocks_lanes : forall l, blocks_of (lanes_of l) = map w128 l.
Proof.
  induction l as [|x l IH]; [reflexivity|]. rewrite lanes_cons. cbn [blocks_of map].
  rewrite IH, mk128_split. reflexivity.
Qed.

Lemma lo64_land : forall x, lo64 x = N.land x (N.ones 64).
Proof. intros. unfold lo64. rewrite N.land_ones. reflexivity. Qed.
Lemma hi64_land : forall x, hi64 x = N.land (N.shiftr x 64) (N.ones 64).
Proof. intros. unfold hi64. rewrite N.land_ones, N.shiftr_div_pow2. reflexivity. Qed.
Lemma lo64_bit : forall x i, N.testbit (lo64 x) i = N.testbit x i && (i <? 64).
Proof.
  intros. rewrite lo64_land, N.land_spec. f_equal.
  destruct (N.ltb_spec i 64); [apply N.ones_spec_low|apply N.ones_spec_high]; auto.
Qed.
Lemma hi64_bit : forall x i, N.testbit (hi64 x) i = N.testbit x (i + 64) && (i <? 64).
Proof.
  intros. rewrite hi64_land, N.land_spec, N.shiftr_spec'. f_equal.
  destruct (N.ltb_spec i 64); [apply N.ones_spec_low|apply N.ones_spec_high]; auto.
Qed.
(** Bitwise operations work on halves. *)
Ltac bits := apply N.bits_inj; intro i;
  repeat first [rewrite N.lxor_spec | rewrite N.land_spec | rewrite N.lor_spec
               | rewrite N.ldiff_spec | rewrite lo64_bit | rewrite hi64_bit].
Lemma lo64_lxor : forall x y, lo64 (N.lxor x y) = N.lxor (lo64 x) (lo64 y).
Proof. intros. bits. destruct (N.testbit x i), (N.testbit y i), (i <? 64); reflexivity. Qed.
Lemma hi64_lxor : forall x y, hi64 (N.lxor x y) = N.lxor (hi64 x) (hi64 y).
Proof. intros. bits. destruct (N.testbit x (i+64)), (N.testbit y (i+64)), (i <? 64); reflexivity. Qed.
Lemma lo64_land2 : forall x y, lo64 (N.land x y) = N.land (lo64 x) (lo64 y).
Proof. intros. bits. destruct (N.testbit x i), (N.testbit y i), (i <? 64); reflexivity. Qed.
Lemma hi64_land2 : forall x y, hi64 (N.land x y) = N.land (hi64 x) (hi64 y).
Proof. intros. bits. destruct (N.testbit x (i+64)), (N.testbit y (i+64)), (i <? 64); reflexivity. Qed.
Lemma lxor_lt_128 : forall x y, x < P128 -> y < P128 -> N.lxor x y < P128.
Proof.
  intros x y Hx Hy. destruct (N.eq_dec (N.lxor x y) 0) as [->|Hn]; [lia|].
  change P128 with (2 ^ 128) in *. apply N.log2_lt_pow2; [lia|].
  eapply N.le_lt_trans; [apply N.log2_lxor|].
  destruct (N.eq_dec x 0) as [->|]; destruct (N.eq_dec y 0) as [->|];
    apply N.max_lub_lt; try (cbn; lia); apply N.log2_lt_pow2; lia.
Qed.
Lemma clear_lowest_lt : forall x, x < P128 -> clear_lowest x < P128.
Proof.
  intros x Hx. unfold clear_lowest. eapply N.le_lt_trans; [|exact Hx].
  apply N.ldiff_le. apply N.bits_inj. intro i. rewrite !N.ldiff_spec, N.bits_0.
  destruct (N.testbit x i), (N.testbit 1 i); reflexivity.
Qed.
Lemma sigma_lt : forall x, sigma x < P128.
Proof. intros. unfold sigma, mk128. lia. Qed.

Lemma vxor_lanes : forall a b, length a = length b ->
  vxor (lanes_of a) (lanes_of b) = lanes_of (zip2 N.lxor a b).
Proof.
  induction a as [|x a IH]; intros [|y b] HL; try discriminate; [reflexivity|].
  rewrite !lanes_cons. unfold vxor in *. cbn [zip2]. rewrite lanes_cons, IH by (cbn in HL; lia).
  rewrite lo64_lxor, hi64_lxor. reflexivity.
Qed.
Lemma vand_lanes : forall a b, length a = length b ->
  vand (lanes_of a) (lanes_of b) = lanes_of (zip2 N.land a b).
Proof.
  induction a as [|x a IH]; intros [|y b] HL; try discriminate; [reflexivity|].
  rewrite !lanes_cons. unfold vand in *. cbn [zip2]. rewrite lanes_cons, IH by (cbn in HL; lia).
  rewrite lo64_land2, hi64_land2. reflexivity.
Qed.
Lemma if_then_else_lanes : forall m a b, length a = length m -> length b = length m ->
  if_then_else (mlanes m) (lanes_of a) (lanes_of b)
  = lanes_of (zip3 (fun (c : bool) x y => if c then x else y) m a b).
Proof.
  unfold if_then_else.
  induction m as [|c m IH]; intros [|x a] [|y b] Ha Hb; try discriminate; [reflexivity|].
  rewrite !lanes_cons, mlanes_cons. cbn [zip3]. rewrite lanes_cons, IH by (cbn in *; lia).
  destruct c; reflexivity.
Qed.
Lemma if_then_else_zero_lanes : forall m a, length a = length m ->
  if_then_else_zero (mlanes m) (lanes_of a)
  = lanes_of (zip2 (fun (c : bool) x => if c then x else 0) m a).
Proof.
  unfold if_then_else_zero.
  induction m as [|c m IH]; intros [|x a] Ha; try discriminate; [reflexivity|].
  rewrite lanes_cons, mlanes_cons. cbn [zip2]. rewrite lanes_cons, IH by (cbn in *; lia).
  destruct c; reflexivity.
Qed.
Lemma mzip_lanes : forall (f : bool -> bool -> bool) a b,
  zip2 f (mlanes a) (mlanes b) = mlanes (zip2 f a b).
Proof.
  induction a as [|x a IH]; intros [|y b]; try reflexivity.
  - rewrite !mlanes_cons. cbn [zip2]. rewrite mlanes_cons, IH. reflexivity.
Qed.
Lemma mnot_lanes : forall a, mnot (mlanes a) = mlanes (map negb a).
Proof.
  induction a as [|x a IH]; [reflexivity|]. rewrite mlanes_cons. unfold mnot in *.
  cbn [map]. rewrite IH. reflexivity.
Qed.

(** * The operations of evaluate_prg_hwy.cc on lanes *)
Lemma halves_zero : forall y, y < P128 -> (N.lor (lo64 y) (hi64 y) =? 0) = (y =? 0).
Proof.
  intros y Hy. destruct (N.eqb_spec y 0) as [->|Hn]; [reflexivity|].
  apply N.eqb_neq. intro H. apply N.lor_eq_0_iff in H. destruct H as [H1 H2].
  apply Hn. rewrite <- (w128_small y Hy), <- mk128_split, H1, H2. reflexivity.
Qed.
Lemma land_bit : forall x k, (N.land x (N.shiftl 1 k) =? 0) = negb (N.testbit x k).
Proof.
  intros x k. rewrite N.shiftl_mul_pow2, N.mul_1_l.
  destruct (N.testbit x k) eqn:E.
  - cbn [negb]. apply N.eqb_neq. intro H.
    assert (HT : N.testbit (N.land x (2 ^ k)) k = false) by (rewrite H; apply N.bits_0).
    rewrite N.land_spec, E, N.pow2_bits_true in HT. discriminate.
  - cbn [negb]. apply N.eqb_eq. apply N.bits_inj. intro i. rewrite N.land_spec, N.bits_0.
    destruct (N.eq_dec i k) as [->|Hn]; [rewrite E; reflexivity|].
    rewrite N.pow2_bits_false by auto. apply andb_false_r.
Qed.

Lemma vor_shuffle_lanes : forall l, Forall (fun y => y < P128) l ->
  map (fun y => negb (y =? 0)) (vor (lanes_of l) (shuffle01 (lanes_of l)))
  = mlanes (map (fun y => negb (y =? 0)) l).
Proof.
  unfold vor. induction l as [|y l IH]; intros HF; [reflexivity|].
  fcons HF Hy HF'. rewrite lanes_cons. cbn [shuffle01 zip2 map]. rewrite mlanes_cons, IH by auto.
  rewrite (N.lor_comm (hi64 y)), halves_zero by auto. reflexivity.
Qed.

Section Width.
Variable bpv : nat.

Lemma is_bit_set_lanes : forall l index, length l = bpv ->
  is_bit_set bpv (lanes_of l) index
  = mlanes (map (fun x => Nat.ltb index 128 && N.testbit x (N.of_nat index)) l).
Proof.
  intros l index HL. unfold is_bit_set, load_dup128.
  set (m := if Nat.ltb index 128 then _ else _).
  assert (Hm : m < P128).
  { unfold m. destruct (Nat.ltb_spec index 128); [|lia].
    rewrite N.shiftl_mul_pow2, N.mul_1_l. change P128 with (2 ^ 128).
    apply N.pow_lt_mono_r; lia. }
  rewrite vand_lanes by (rewrite repeat_length; auto).
  rewrite zip2_repeat_r by auto. rewrite vor_shuffle_lanes.
  - f_equal. rewrite map_map. apply map_ext. intros x. unfold m.
    destruct (Nat.ltb_spec index 128); cbn [andb].
    + rewrite land_bit, negb_involutive. reflexivity.
    + rewrite N.land_0_r. reflexivity.
  - rewrite Forall_map. apply Forall_forall. intros x _.
    eapply N.le_lt_trans; [|exact Hm]. apply N.ldiff_le. apply N.bits_inj. intro i.
    rewrite N.ldiff_spec, N.land_spec, N.bits_0. destruct (N.testbit x i), (N.testbit m i); reflexivity.
Qed.

Lemma sigma_lanes : forall l, length l = bpv ->
  sigma_vec bpv (lanes_of l) = lanes_of (map sigma l).
Proof.
  intros l <-. unfold sigma_vec, load_dup128, vxor, vand.
  induction l as [|x l IH]; [reflexivity|].
  cbn [length repeat]. rewrite !lanes_cons. cbn [shuffle01 zip2 map]. rewrite lanes_cons, IH.
  replace (lo64 kSigmaMask) with 0 by reflexivity.
  replace (hi64 kSigmaMask) with (N.ones 64) by reflexivity.
  rewrite N.land_0_l, N.lxor_0_r, (N.land_comm (N.ones 64)), N.land_ones.
  replace (hi64 x mod 2 ^ 64) with (hi64 x) by (unfold hi64; change (2 ^ 64) with P64; lia).
  unfold sigma.
  assert (HA : forall a b, lo64 (mk128 a b) = b mod P64) by (intros; unfold lo64, mk128; lia).
  assert (HB : forall a b, hi64 (mk128 a b) = a mod P64) by (intros; unfold hi64, mk128; lia).
  rewrite HA, HB. f_equal; [unfold hi64; lia|]. f_equal.
  change (N.lxor (hi64 x) (lo64 x) mod P64) with (lo64 (N.lxor (hi64 x) (lo64 x))).
  rewrite lo64_lxor, N.lxor_comm. unfold lo64, hi64. f_equal; lia.
Qed.

Section Aes.
Variables (aes_round aes_last : N -> N -> N) (round_key : N -> nat -> N).
Let aes := aes_encrypt aes_round aes_last round_key.

Definition sel (k0 k1 : N) (b : bool) : N := if b then k1 else k0.

Lemma selected_key_lanes : forall ms k0 k1 r, length ms = bpv ->
  selected_key bpv round_key (mlanes ms) k0 k1 r
  = lanes_of (map (fun b => rkey round_key (sel k0 k1 b) r) ms).
Proof.
  intros ms k0 k1 r <-. unfold selected_key, load_dup128.
  rewrite if_then_else_lanes by (rewrite repeat_length; auto). f_equal.
  induction ms as [|b ms IH]; [reflexivity|]. cbn [length repeat zip3 map]. rewrite IH.
  destruct b; reflexivity.
Qed.

Lemma on_blocks_lanes : forall f a b, Forall (fun x => x < P128) b -> Forall (fun x => x < P128) a ->
  on_blocks f (lanes_of a) (lanes_of b) = lanes_of (zip2 (fun x y => w128 (f x y)) a b).
Proof.
  intros f a b Hb Ha. unfold on_blocks. rewrite !blocks_lanes.
  assert (HM : forall l, Forall (fun x => x < P128) l -> map w128 l = l).
  { induction l as [|x l IH]; intros HF; [reflexivity|]. fcons HF Hx HF'. cbn [map].
    rewrite IH by auto. rewrite w128_small by auto. reflexivity. }
  rewrite !HM by auto. clear. revert b.
  induction a as [|x a IH]; intros [|y b]; try reflexivity.
  cbn [zip2]. rewrite !lanes_cons, IH.
  assert (lo64 (w128 (f x y)) = lo64 (f x y)) as -> by (unfold lo64, w128; lia).
  assert (hi64 (w128 (f x y)) = hi64 (f x y)) as -> by (unfold hi64, w128; lia).
  reflexivity.
Qed.

Lemma aes_lt : forall k x, aes k x < P128.
Proof. intros. apply w128_lt. Qed.
Lemma hash_lt : forall k x, hash aes k x < P128.
Proof. intros. apply lxor_lt_128; [apply aes_lt|apply sigma_lt]. Qed.

(** HashOneWithKeyMask hashes every block under the key its mask selects. *)
Lemma hash_one_lanes : forall l ms k0 k1, length l = bpv -> length ms = bpv ->
  hash_one_with_key_mask bpv aes_round aes_last round_key (lanes_of l) (mlanes ms) k0 k1
  = lanes_of (zip2 (fun b x => hash aes (sel k0 k1 b) x) ms l).
Proof.
  intros l ms k0 k1 Hl Hm. unfold hash_one_with_key_mask. rewrite sigma_lanes by auto.
  rewrite !selected_key_lanes by auto.
  rewrite vxor_lanes by (rewrite !map_length; lia).
  set (ks := fun r => map (fun b => rkey round_key (sel k0 k1 b) r) ms).
  assert (Hks : forall r, Forall (fun x => x < P128) (ks r)).
  { intros r. unfold ks. rewrite Forall_map. apply Forall_forall. intros. apply w128_lt. }
  assert (HF : forall rs st, length st = length ms -> Forall (fun x => x < P128) st ->
    fold_left (fun o r => on_blocks aes_round o (selected_key bpv round_key (mlanes ms) k0 k1 r))
      rs (lanes_of st)
    = lanes_of (zip2 (fun b x => fold_left (fun s r => w128 (aes_round s (rkey round_key (sel k0 k1 b) r)))
                                   rs x) ms st)
    /\ Forall (fun x => x < P128) (zip2 (fun b x => fold_left (fun s r => w128 (aes_round s (rkey round_key (sel k0 k1 b) r)))
                                   rs x) ms st)).
  { clear - Hm Hks. induction rs as [|r rs IH]; intros st HL HF.
    - cbn [fold_left]. assert (zip2 (fun (_ : bool) x => x) ms st = st) as ->; [|auto].
      clear - HL. revert st HL. induction ms as [|b ms IH]; intros [|x st] HL; try discriminate; auto.
      cbn [zip2]. rewrite IH by (cbn in HL; lia). reflexivity.
    - cbn [fold_left]. rewrite selected_key_lanes by auto. fold (ks r).
      rewrite on_blocks_lanes by auto.
      specialize (IH (zip2 (fun x y => w128 (aes_round x y)) st (ks r))).
      assert (HL2 : length (zip2 (fun x y => w128 (aes_round x y)) st (ks r)) = length ms).
      { rewrite zip2_length; auto. unfold ks. rewrite map_length. auto. }
      assert (HF2 : Forall (fun x => x < P128) (zip2 (fun x y => w128 (aes_round x y)) st (ks r))).
      { rewrite zip2_combine. rewrite Forall_map. apply Forall_forall. intros. apply w128_lt. }
      destruct (IH HL2 HF2) as [-> HF3].
      assert (HE : zip2 (fun b x => fold_left (fun s r0 => w128 (aes_round s (rkey round_key (sel k0 k1 b) r0))) rs x)
                  ms (zip2 (fun x y => w128 (aes_round x y)) st (ks r))
              = zip2 (fun b x => fold_left (fun s r0 => w128 (aes_round s (rkey round_key (sel k0 k1 b) r0))) rs
                     (w128 (aes_round x (rkey round_key (sel k0 k1 b) r)))) ms st).
      { clear - HL. subst ks. revert st HL. induction ms as [|b ms IH]; intros [|x st] HL; try discriminate; auto.
        cbn [map zip2]. f_equal. apply IH. cbn in HL. lia. }
      rewrite HE in HF3 |- *. split; auto. }
  assert (HF0 : Forall (fun x => x < P128) (zip2 N.lxor (map sigma l) (ks 0%nat))).
  { rewrite zip2_combine, Forall_map. apply Forall_forall. intros [x y] Hin. cbn [fst snd].
    apply lxor_lt_128.
    - apply in_combine_l in Hin. apply in_map_iff in Hin. destruct Hin as (z & <- & _). apply sigma_lt.
    - apply in_combine_r in Hin. specialize (Hks 0%nat). rewrite Forall_forall in Hks. auto. }
  fold (ks 0%nat). fold (ks 10%nat).
  destruct (HF (seq 1 9) (zip2 N.lxor (map sigma l) (ks 0%nat))) as [-> HF1]; auto.
  { rewrite zip2_length; unfold ks; rewrite !map_length; lia. }
  rewrite on_blocks_lanes by auto.
  rewrite vxor_lanes.
  - f_equal. subst ks. clear - Hl Hm. assert (HL : length l = length ms) by lia. clear Hl Hm. revert l HL.
    induction ms as [|b ms IH]; intros [|x l] HL; try discriminate; auto.
    cbn [map zip2]. f_equal. apply IH. cbn in HL. lia.
  - unfold ks. zl.
Qed.

(** * One level of one vector *)
(** The vector form of nodes. *)
Definition enc (st : list node) : vstate := (lanes_of (map fst st), mlanes (map snd st)).
Definition cl (c : corr) : bool := fst (snd c).
Definition cr (c : corr) : bool := snd (snd c).

Lemma clear_mask_lanes : forall l, length l = bpv ->
  vand (lanes_of l) (load_dup128 bpv (P128 - 2)) = lanes_of (map clear_lowest l).
Proof.
  intros l HL. unfold load_dup128. rewrite vand_lanes by (rewrite repeat_length; auto).
  rewrite zip2_repeat_r by auto.
  assert (HE : forall x, lo64 (N.land x (P128 - 2)) = lo64 (clear_lowest x)
                      /\ hi64 (N.land x (P128 - 2)) = hi64 (clear_lowest x)).
  { intros x. assert (HB : forall i, i < 128 -> N.testbit (P128 - 2) i = negb (N.testbit 1 i)).
    { intros i Hi. change (P128 - 2) with (N.ldiff (N.ones 128) 1). rewrite N.ldiff_spec, N.ones_spec_low by auto.
      reflexivity. }
    unfold clear_lowest. split; bits.
    - destruct (N.ltb_spec i 64); [|rewrite !andb_false_r; reflexivity]. rewrite HB by lia. reflexivity.
    - destruct (N.ltb_spec i 64); [|rewrite !andb_false_r; reflexivity]. rewrite HB by lia. reflexivity. }
  clear HL. induction l as [|x l IH]; [reflexivity|]. cbn [map]. rewrite !lanes_cons, IH.
  destruct (HE x) as [-> ->]. reflexivity.
Qed.

Lemma vector_level_enc : forall cs pb st,
  length cs = bpv -> length pb = bpv -> length st = bpv ->
  vector_level bpv (mlanes pb) (lanes_of (map fst cs)) (mlanes (map cl cs)) (mlanes (map cr cs))
    (hash_one_with_key_mask bpv aes_round aes_last round_key (lanes_of (map fst st)) (mlanes pb)
       kPrgKeyLeft kPrgKeyRight)
    (mlanes (map snd st))
  = enc (zip3 (step aes) cs pb st).
Proof.
  intros cs pb st Hc Hp Hs. unfold vector_level.
  rewrite hash_one_lanes by (rewrite ?map_length; auto).
  rewrite if_then_else_zero_lanes by (rewrite !map_length; lia).
  rewrite vxor_lanes.
  2:{ zl. }
  set (vs := zip2 N.lxor _ _).
  assert (Hvs : length vs = bpv).
  { unfold vs. zl. }
  rewrite is_bit_set_lanes, clear_mask_lanes by auto.
  unfold if_then_else_mask, mxor, mand, mor. rewrite mnot_lanes, !mzip_lanes.
  unfold enc. unfold vs. clear vs Hvs.
  assert (HL1 : length pb = length cs) by lia. assert (HL2 : length st = length cs) by lia.
  clear Hc Hp Hs.
  assert (HE : map clear_lowest (zip2 N.lxor
      (zip2 (fun b x => hash aes (sel kPrgKeyLeft kPrgKeyRight b) x) pb (map fst st))
      (zip2 (fun (c : bool) x => if c then x else 0) (map snd st) (map fst cs)))
      = map fst (zip3 (step aes) cs pb st)
    /\ zip2 xorb (map (fun x => Nat.ltb 0 128 && N.testbit x (N.of_nat 0)) (zip2 N.lxor
      (zip2 (fun b x => hash aes (sel kPrgKeyLeft kPrgKeyRight b) x) pb (map fst st))
      (zip2 (fun (c : bool) x => if c then x else 0) (map snd st) (map fst cs))))
      (zip2 andb (map snd st) (zip2 orb (zip2 andb pb (map cr cs)) (zip2 andb (map negb pb) (map cl cs))))
      = map snd (zip3 (step aes) cs pb st)).
  { revert pb st HL1 HL2. induction cs as [|c cs IH]; intros [|b pb] [|[s t] st] H1 H2; try discriminate.
    - split; reflexivity.
    - destruct (IH pb st ltac:(cbn in *; lia) ltac:(cbn in *; lia)) as [IH1 IH2].
      cbn [map zip2 zip3 fst snd]. rewrite IH1, IH2. unfold step. cbn [fst snd].
      change (Nat.ltb 0 128) with true. change (N.of_nat 0) with 0. rewrite N.bit0_odd.
      unfold lowest_bit, cl, cr, sel.
      split; f_equal.
      + destruct t; [|rewrite N.lxor_0_r]; reflexivity.
      + destruct t; [|rewrite N.lxor_0_r]; cbn [andb]; destruct b; cbn [negb andb orb];
          rewrite ?orb_false_r; reflexivity. }
  destruct HE as [-> ->]. reflexivity.
Qed.

End Aes.
End Width.
