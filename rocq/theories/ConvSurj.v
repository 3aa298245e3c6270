(** Every list of values is the conversion of some bytes (value_type_helpers.h:543-606). *)
From Coq Require Import List NArith ZArith Lia Bool ZifyBool ZifyNat ZifyN.
From Verif Require Import Base ListUtil ValueTypesModel ValueTypesSpec ValueTypesProofs ConvProofs.
Import ListNotations.
Ltac Zify.zify_post_hook ::= Z.div_mod_to_equations.
Open Scope N_scope.

Definition bytes_ok (b : bytes) : Prop := Forall (fun x => x < 256) b.

Lemma le_encode_bytes : forall n x, bytes_ok (le_encode n x).
Proof.
  unfold bytes_ok. induction n as [|n IH]; intros x; cbn [le_encode]; constructor; auto.
  apply N.mod_lt. lia.
Qed.
Lemma encode_decode : forall b, bytes_ok b -> le_encode (length b) (le_decode b) = b.
Proof.
  induction b as [|x b IH]; intros H; [reflexivity|]. fcons H Hx Hb.
  cbn [length le_encode le_decode]. rewrite (N.mod_small x 256) by auto.
  replace (x + 256 * le_decode b) with (x + le_decode b * 256) by lia. f_equal.
  - rewrite N.mod_add by lia. apply N.mod_small. auto.
  - rewrite N.div_add by lia. rewrite (N.div_small x 256) by auto. apply IH. auto.
Qed.

Lemma word_bytes : forall w x, cwidth_ok w = true -> x < 2 ^ w ->
  le_decode (le_encode (nbytes w) x) = x.
Proof.
  intros w x Hw Hx. rewrite le_decode_encode. change 256 with (2 ^ 8).
  rewrite <- N.pow_mul_r, nbytes_width by auto. apply N.mod_small. auto.
Qed.

(** Reading a word back from the front of the remaining bytes. *)
Lemma read_word : forall w x rem, cwidth_ok w = true -> x < 2 ^ w ->
  substr (le_encode (nbytes w) x ++ rem) 0 (nbytes w) = Ok (le_encode (nbytes w) x) /\
  int_from_bytes w (le_encode (nbytes w) x) = Ok x /\
  substr_from (le_encode (nbytes w) x ++ rem) (nbytes w) = Ok rem.
Proof.
  intros w x rem Hw Hx. pose proof (le_encode_length (nbytes w) x) as HL.
  rewrite substr_ok, substr_from_ok by (rewrite ?app_length; lia). cbn [skipn].
  rewrite firstn_app_exact, skipn_app_exact by auto. split; auto. split; auto.
  unfold int_from_bytes. rewrite HL, Nat.eqb_refl. cbn [abort_unless bind]. rewrite word_bytes; auto.
Qed.

Lemma ldiff_lor_low : forall hi lo w, lo < 2 ^ w -> N.lor (N.ldiff (hi * 2 ^ w + lo) (N.ones w)) lo = hi * 2 ^ w + lo.
Proof.
  intros hi lo w H. apply N.bits_inj. intros i. rewrite N.lor_spec, N.ldiff_spec.
  destruct (N.lt_ge_cases i w) as [Hi|Hi].
  - rewrite N.ones_spec_low by auto. rewrite andb_false_r. cbn [orb].
    rewrite <- (N.mod_pow2_bits_low (hi * 2 ^ w + lo) w i) by auto.
    rewrite N.add_comm, N.mod_add by (apply N.pow_nonzero; lia). rewrite N.mod_small by auto. reflexivity.
  - rewrite N.ones_spec_high by auto. rewrite andb_true_r.
    replace (N.testbit lo i) with false; [apply orb_false_r|]. symmetry.
    rewrite <- (N.mod_small lo (2 ^ w)) by auto. apply N.mod_pow2_bits_high. auto.
Qed.
Lemma low_irrelevant : forall hi lo lo' w, lo < 2 ^ w -> lo' < 2 ^ w ->
  N.ldiff (hi * 2 ^ w + lo') (N.ones w) = N.ldiff (hi * 2 ^ w + lo) (N.ones w).
Proof.
  intros hi lo lo' w H H'. apply N.bits_inj. intros i. rewrite !N.ldiff_spec.
  destruct (N.lt_ge_cases i w) as [Hi|Hi].
  - rewrite N.ones_spec_low by auto. rewrite !andb_false_r. reflexivity.
  - rewrite N.ones_spec_high by auto. rewrite !andb_true_r.
    assert (HD : forall l, l < 2 ^ w -> N.testbit (hi * 2 ^ w + l) i = N.testbit hi (i - w)).
    { intros l Hl. replace i with (i - w + w) at 1 by lia. rewrite <- N.div_pow2_bits.
      rewrite N.div_add_l by (apply N.pow_nonzero; lia). rewrite (N.div_small l) by auto. f_equal. lia. }
    rewrite !HD by auto. reflexivity.
Qed.

(** One leaf: whatever the next block must be, some block gives the value and leads there. *)
Lemma int_leaf_surj : forall w v B' rem, cwidth_ok w = true -> v < 2 ^ w -> B' < 2 ^ 128 ->
  exists B pre, B < 2 ^ 128 /\ length pre = nbytes w /\ bytes_ok pre /\ B mod 2 ^ w = v /\
    exists x, substr (pre ++ rem) 0 (nbytes w) = Ok pre /\ int_from_bytes w pre = Ok x /\
      substr_from (pre ++ rem) (nbytes w) = Ok rem /\
      N.lor (if w <? 128 then N.ldiff B (N.ones w) else 0) x = B'.
Proof.
  intros w v B' rem Hw Hv HB. pose proof (pow2_pos w) as Hp.
  destruct (N.ltb_spec w 128) as [Hlt|Hge].
  - set (hi := B' / 2 ^ w). set (lo := B' mod 2 ^ w).
    assert (Hlo : lo < 2 ^ w) by (apply N.mod_lt; lia).
    assert (HE : B' = hi * 2 ^ w + lo).
    { unfold hi, lo. rewrite N.mul_comm. apply N.div_mod. lia. }
    exists (hi * 2 ^ w + v), (le_encode (nbytes w) lo).
    split.
    { assert (Hhi : hi < 2 ^ (128 - w)).
      { unfold hi. apply N.div_lt_upper_bound; [lia|]. rewrite <- N.pow_add_r. replace (w + (128 - w)) with 128 by lia. auto. }
      replace 128 with ((128 - w) + w) by lia. rewrite N.pow_add_r. nia. }
    split; [apply le_encode_length|]. split; [apply le_encode_bytes|].
    split.
    { rewrite N.add_comm, N.mod_add by lia. apply N.mod_small. auto. }
    exists lo. destruct (read_word w lo rem Hw Hlo) as (H1 & H2 & H3). split; auto. split; auto. split; auto.
    rewrite (low_irrelevant hi lo v w) by auto. rewrite ldiff_lor_low by auto. auto.
  - assert (w = 128) by (widths Hw; lia). subst w.
    exists v, (le_encode (nbytes 128) B'). split; auto. split; [apply le_encode_length|].
    split; [apply le_encode_bytes|]. split; [apply N.mod_small; auto|].
    exists B'. destruct (read_word 128 B' rem Hw HB) as (H1 & H2 & H3). auto.
Qed.
Lemma mod_leaf_surj : forall w m v B' rem, cwidth_ok w = true -> 0 < m < 2 ^ w -> v < m -> B' < 2 ^ 128 ->
  exists B pre, B < 2 ^ 128 /\ length pre = nbytes w /\ bytes_ok pre /\ B mod m = v /\
    exists x, substr (pre ++ rem) 0 (nbytes w) = Ok pre /\ int_from_bytes w pre = Ok x /\
      substr_from (pre ++ rem) (nbytes w) = Ok rem /\
      N.lor (if w <? 128 then w128 (N.shiftl (B / m) w) else 0) x = B'.
Proof.
  intros w m v B' rem Hw Hm Hv HB. pose proof (pow2_pos w) as Hp.
  destruct (N.ltb_spec w 128) as [Hlt|Hge].
  - set (hi := B' / 2 ^ w). set (lo := B' mod 2 ^ w).
    assert (Hlo : lo < 2 ^ w) by (apply N.mod_lt; lia).
    assert (HE : B' = hi * 2 ^ w + lo).
    { unfold hi, lo. rewrite N.mul_comm. apply N.div_mod. lia. }
    assert (Hhi : hi < 2 ^ (128 - w)).
    { unfold hi. apply N.div_lt_upper_bound; [lia|]. rewrite <- N.pow_add_r. replace (w + (128 - w)) with 128 by lia. auto. }
    assert (H128 : 2 ^ 128 = 2 ^ (128 - w) * 2 ^ w) by (rewrite <- N.pow_add_r; f_equal; lia).
    exists (hi * m + v), (le_encode (nbytes w) lo).
    split; [rewrite H128; nia|].
    split; [apply le_encode_length|]. split; [apply le_encode_bytes|].
    split.
    { rewrite N.add_comm, N.mod_add by lia. apply N.mod_small. auto. }
    exists lo. destruct (read_word w lo rem Hw Hlo) as (H1 & H2 & H3). split; auto. split; auto. split; auto.
    rewrite N.div_add_l by lia. rewrite (N.div_small v m) by auto. rewrite N.add_0_r.
    rewrite N.shiftl_mul_pow2. unfold w128. rewrite N.mod_small.
    2:{ change P128 with (2 ^ 128). rewrite H128. nia. }
    rewrite HE. rewrite <- (ldiff_lor_low hi lo w) by auto. f_equal.
    rewrite <- (low_irrelevant hi lo 0 w) by auto. rewrite N.add_0_r.
    apply N.bits_inj. intros i. rewrite N.ldiff_spec. destruct (N.lt_ge_cases i w) as [Hi|Hi].
    + rewrite N.mul_pow2_bits_low by auto. reflexivity.
    + rewrite N.ones_spec_high by auto. rewrite andb_true_r. reflexivity.
  - assert (w = 128) by (widths Hw; lia). subst w.
    exists v, (le_encode (nbytes 128) B'). split; [lia|]. split; [apply le_encode_length|].
    split; [apply le_encode_bytes|]. split; [apply N.mod_small; auto|].
    exists B'. destruct (read_word 128 B' rem Hw HB) as (H1 & H2 & H3). auto.
Qed.

Lemma wt_tup_inv : forall ts v, wt (TTup ts) v = true -> exists vs, v = VTup vs /\ all2 wt ts vs = true.
Proof. intros ts [x|vs] H; [discriminate|]. exists vs. auto. Qed.

Lemma sample_true_surj : forall t v B' rem, cty_ok t = true -> wt t v = true -> B' < 2 ^ 128 ->
  exists B pre, B < 2 ^ 128 /\ length pre = leaf_bytes t /\ bytes_ok pre /\
    sample_and_update t true B (pre ++ rem) = Ok (v, (B', rem)).
Proof.
  induction t as [w|w m|w|ts IH] using cty_ind'; intros v B' rem Hok Hwt HB.
  - destruct v as [x|]; [|discriminate]. cbn [wt] in Hwt. apply N.ltb_lt in Hwt.
    destruct (int_leaf_surj w x B' rem Hok Hwt HB) as (B & pre & H1 & H2 & H3 & H4 & y & H5 & H6 & H7 & H8).
    exists B, pre. do 3 (split; [assumption|]). cbn [sample_and_update]. rewrite H5. cbn [bind]. rewrite H6. cbn [bind].
    rewrite H7. cbn [bind]. rewrite H4, H8. reflexivity.
  - destruct v as [x|]; [|discriminate]. cbn [wt] in Hwt. apply N.ltb_lt in Hwt.
    apply cty_ok_mod in Hok. destruct Hok as (Hw & Hm).
    destruct (mod_leaf_surj w m x B' rem Hw Hm Hwt HB) as (B & pre & H1 & H2 & H3 & H4 & y & H5 & H6 & H7 & H8).
    exists B, pre. do 3 (split; [assumption|]). cbn [sample_and_update]. rewrite H5. cbn [bind]. rewrite H6. cbn [bind].
    rewrite H7. cbn [bind]. rewrite H4, H8. rewrite (N.mod_small x (2 ^ w)) by lia. rewrite N.mod_small by auto. reflexivity.
  - destruct v as [x|]; [|discriminate]. cbn [wt] in Hwt. apply N.ltb_lt in Hwt.
    destruct (int_leaf_surj w x B' rem Hok Hwt HB) as (B & pre & H1 & H2 & H3 & H4 & y & H5 & H6 & H7 & H8).
    exists B, pre. do 3 (split; [assumption|]). cbn [sample_and_update]. rewrite H5. cbn [bind]. rewrite H6. cbn [bind].
    rewrite H7. cbn [bind]. rewrite H4, H8. reflexivity.
  - apply wt_tup_inv in Hwt. destruct Hwt as (vs & -> & Hwt).
    apply cty_ok_tup in Hok. destruct Hok as [_ Hok]. cbn [leaf_bytes].
    assert (HH : forall n c, exists B pre, B < 2 ^ 128 /\
      length pre = fold_right (fun t acc => leaf_bytes t + acc)%nat 0%nat ts /\ bytes_ok pre /\
      sample_list sample_and_update n true ts c B (pre ++ rem) = Ok (vs, (B', rem))).
    { revert vs Hwt. induction ts as [|t ts IHts]; intros vs Hwt n c.
      - destruct vs; [|discriminate]. exists B', []. repeat split; auto. constructor.
      - destruct vs as [|v vs]; [discriminate|]. cbn [all2] in Hwt. apply andb_true_iff in Hwt. destruct Hwt as [Hv Hvs].
        fcons IH IHh IHt. fcons Hok Hokh Hokt.
        destruct (IHts IHt Hokt vs Hvs n (S c)) as (B1 & pre1 & HB1 & HL1 & HO1 & HS1).
        destruct (IHh v B1 (pre1 ++ rem) Hokh Hv HB1) as (B0 & pre0 & HB0 & HL0 & HO0 & HS0).
        exists B0, (pre0 ++ pre1). split; auto. split; [rewrite app_length; cbn [fold_right]; lia|].
        split; [apply Forall_app; auto|]. rewrite <- app_assoc. cbn [sample_list orb]. rewrite HS0. cbn [bind].
        rewrite HS1. reflexivity. }
    destruct (HH (length ts) 0%nat) as (B & pre & H1 & H2 & H3 & H4).
    exists B, pre. do 3 (split; [assumption|]). cbn [sample_and_update]. rewrite H4. reflexivity.
Qed.

Lemma sample_false_surj : forall t v rem, cty_ok t = true -> wt t v = true ->
  exists B pre st, B < 2 ^ 128 /\ length pre = (leaf_bytes t - last_bytes t)%nat /\ bytes_ok pre /\
    sample_and_update t false B (pre ++ rem) = Ok (v, st).
Proof.
  induction t as [w|w m|w|ts IH] using cty_ind'; intros v rem Hok Hwt.
  1-3: destruct v as [x|]; [|discriminate]; cbn [wt] in Hwt; apply N.ltb_lt in Hwt.
  1-3: exists x, [], (x, rem); cbn [leaf_bytes last_bytes length app sample_and_update].
  - split; [|split; [lia|split; [constructor|rewrite N.mod_small by auto; reflexivity]]].
    apply cwidth_le128 in Hok. change (2 ^ 128) with P128. lia.
  - apply cty_ok_mod in Hok. destruct Hok as (Hw & Hm). apply cwidth_le128 in Hw.
    split; [change (2 ^ 128) with P128; lia|split; [lia|split; [constructor|]]].
    rewrite (N.mod_small x m) by auto. rewrite (N.mod_small x (2 ^ w)) by lia. rewrite N.mod_small by auto. reflexivity.
  - split; [|split; [lia|split; [constructor|rewrite N.mod_small by auto; reflexivity]]].
    apply cwidth_le128 in Hok. change (2 ^ 128) with P128. lia.
  - apply wt_tup_inv in Hwt. destruct Hwt as (vs & -> & Hwt).
    apply cty_ok_tup in Hok. destruct Hok as [Hne Hok].
    change (last_bytes (TTup ts)) with (last_of ts). cbn [leaf_bytes].
    assert (HH : forall c, exists B pre st, B < 2 ^ 128 /\
      length pre = (fold_right (fun t acc => leaf_bytes t + acc)%nat 0%nat ts - last_of ts)%nat /\ bytes_ok pre /\
      sample_list sample_and_update (length ts + c) false ts c B (pre ++ rem) = Ok (vs, st)).
    { revert vs Hwt. induction ts as [|t ts IHts]; intros vs Hwt c; [congruence|].
      destruct vs as [|v vs]; [discriminate|]. cbn [all2] in Hwt. apply andb_true_iff in Hwt. destruct Hwt as [Hv Hvs].
      fcons IH IHh IHt. fcons Hok Hokh Hokt. cbn [sample_list orb]. destruct ts as [|t' ts].
      - destruct vs; [|discriminate].
        replace (S c <? length [t] + c)%nat with false by (symmetry; apply Nat.ltb_ge; cbn [length]; lia).
        destruct (IHh v rem Hokh Hv) as (B & pre & [b r] & HB & HL & HO & HS).
        exists B, pre, (b, r). cbn [fold_right]. change (last_of [t]) with (last_bytes t).
        split; auto. split; [lia|]. split; auto. rewrite HS. reflexivity.
      - replace (S c <? length (t :: t' :: ts) + c)%nat with true
            by (symmetry; apply Nat.ltb_lt; cbn [length]; lia).
        rewrite last_of_cons.
        assert (HB : (last_of (t' :: ts) <= leaf_bytes (TTup (t' :: ts)))%nat)
            by apply (last_le_leaf (TTup (t' :: ts))).
        cbn [leaf_bytes] in HB.
        assert (Htl : t' :: ts <> []) by discriminate.
        remember (t' :: ts) as tl. cbn [fold_right].
        destruct (IHts IHt Htl Hokt vs Hvs (S c)) as (B1 & pre1 & st & HB1 & HL1 & HO1 & HS1).
        destruct (sample_true_surj t v B1 (pre1 ++ rem) Hokh Hv HB1) as (B0 & pre0 & HB0 & HL0 & HO0 & HS0).
        exists B0, (pre0 ++ pre1), st. split; auto. split; [rewrite app_length; lia|].
        split; [apply Forall_app; auto|]. rewrite <- app_assoc. rewrite HS0. cbn [bind].
        cbn [length]. replace (S (length tl) + c)%nat with (length tl + S c)%nat by lia. rewrite HS1.
        destruct st; reflexivity. }
    destruct (HH 0%nat) as (B & pre & [b r] & H1 & H2 & H3 & H4). rewrite Nat.add_0_r in H4.
    exists B, pre, (b, r). do 3 (split; [assumption|]). cbn [sample_and_update]. rewrite H4. reflexivity.
Qed.

(** ** Directly convertible types *)

(** The bytes of one value, and of the elements of a block. *)
Fixpoint elem_bytes (t : cty) (v : cval) : bytes :=
  match t, v with
  | TInt w, VNum x | TXor w, VNum x | TMod w _, VNum x => le_encode (nbytes w) x
  | TTup ts, VTup vs => concat (zip2 elem_bytes ts vs)
  | _, _ => []
  end.
Definition elements_bytes (t : cty) (es : list cval) : bytes := concat (map (elem_bytes t) es).
(** The bytes [old], with the elements replaced. *)
Definition reencode (t : cty) (old : bytes) (es : list cval) : bytes :=
  elements_bytes t es ++ skipn (length es * leaf_bytes t) old.

Lemma elem_bytes_spec : forall t v, cty_ok t = true -> is_direct t = true -> wt t v = true ->
  length (elem_bytes t v) = leaf_bytes t /\ bytes_ok (elem_bytes t v) /\
  direct_from_bytes t (elem_bytes t v) = Ok v.
Proof.
  induction t as [w|w m|w|ts IH] using cty_ind'; intros v Hok Hd Hwt.
  - destruct v as [x|]; [|discriminate]. cbn [wt] in Hwt. apply N.ltb_lt in Hwt. cbn [elem_bytes].
    split; [apply le_encode_length|]. split; [apply le_encode_bytes|].
    cbn [direct_from_bytes]. destruct (read_word w x [] Hok Hwt) as (_ & -> & _). reflexivity.
  - discriminate.
  - destruct v as [x|]; [|discriminate]. cbn [wt] in Hwt. apply N.ltb_lt in Hwt. cbn [elem_bytes].
    split; [apply le_encode_length|]. split; [apply le_encode_bytes|].
    cbn [direct_from_bytes]. destruct (read_word w x [] Hok Hwt) as (_ & -> & _). reflexivity.
  - pose proof (total_bits_leaf _ Hok) as HT.
    apply wt_tup_inv in Hwt. destruct Hwt as (vs & -> & Hwt).
    apply cty_ok_tup in Hok. destruct Hok as [_ Hok]. cbn [is_direct] in Hd. cbn [elem_bytes].
    assert (HH : length (concat (zip2 elem_bytes ts vs)) = fold_right (fun t acc => leaf_bytes t + acc)%nat 0%nat ts /\
      bytes_ok (concat (zip2 elem_bytes ts vs)) /\
      forall before, direct_list direct_from_bytes ts (before ++ concat (zip2 elem_bytes ts vs)) (length before) = Ok vs).
    { clear HT. revert vs Hwt. induction ts as [|t ts IHts]; intros vs Hwt.
      - destruct vs; [|discriminate]. repeat split; auto. constructor.
      - destruct vs as [|v vs]; [discriminate|]. cbn [all2] in Hwt. apply andb_true_iff in Hwt. destruct Hwt as [Hv Hvs].
        fcons IH IHh IHt. fcons Hok Hokh Hokt. cbn [forallb] in Hd. apply andb_true_iff in Hd. destruct Hd as [Hd1 Hd2].
        destruct (IHh v Hokh Hd1 Hv) as (HL0 & HO0 & HS0).
        destruct (IHts IHt Hokt Hd2 vs Hvs) as (HL1 & HO1 & HS1). cbn [zip2 concat].
        set (b0 := elem_bytes t v) in *. set (b1 := concat (zip2 elem_bytes ts vs)) in *. unfold bytes in *.
        split; [rewrite app_length; cbn [fold_right]; lia|]. split; [apply Forall_app; auto|].
        intros before. specialize (HS1 (before ++ b0)).
        cbn [direct_list]. rewrite element_size_leaf by auto. rewrite substr_ok by (rewrite app_length; lia).
        rewrite skipn_app_exact by auto. rewrite firstn_app_exact by auto. cbn [bind]. rewrite HS0. cbn [bind].
        rewrite app_length, HL0, <- app_assoc in HS1. unfold bytes in *. rewrite HS1. reflexivity. }
    destruct HH as (HL & HO & HS). split; [exact HL|]. split; [exact HO|].
    set (b := concat (zip2 elem_bytes ts vs)) in *.
    cbn [direct_from_bytes]. cbn [leaf_bytes] in HT.
    replace (total_bits (TTup ts) <=? 8 * N.of_nat (length b)) with true
      by (symmetry; apply N.leb_le; unfold bytes in *; lia).
    specialize (HS []). cbn [app length] in HS. cbn [abort_unless bind]. rewrite HS. reflexivity.
Qed.
Lemma direct_elem_bytes : forall t b v, cty_ok t = true -> is_direct t = true ->
  length b = leaf_bytes t -> bytes_ok b -> direct_from_bytes t b = Ok v -> elem_bytes t v = b.
Proof.
  induction t as [w|w m|w|ts IH] using cty_ind'; intros b v Hok Hd HL HO H.
  - cbn [direct_from_bytes leaf_bytes] in *. bind_inv H. inv H. cbn [elem_bytes].
    unfold int_from_bytes in Hb. bind_inv Hb. inv Hb. rewrite <- HL. apply encode_decode; auto.
  - discriminate.
  - cbn [direct_from_bytes leaf_bytes] in *. bind_inv H. inv H. cbn [elem_bytes].
    unfold int_from_bytes in Hb. bind_inv Hb. inv Hb. rewrite <- HL. apply encode_decode; auto.
  - cbn [direct_from_bytes leaf_bytes] in *. bind_inv H. bind_inv H. rename a0 into vs. inv H. clear Hb.
    apply cty_ok_tup in Hok. destruct Hok as [_ Hok]. cbn [is_direct] in Hd. cbn [elem_bytes].
    assert (HH : forall before, direct_list direct_from_bytes ts (before ++ b) (length before) = Ok vs ->
      concat (zip2 elem_bytes ts vs) = b).
    { clear Hb0. revert vs b HL HO. induction ts as [|t ts IHts]; intros vs b HL HO before H.
      - cbn in H. inv H. destruct b; [reflexivity|discriminate].
      - fcons IH IHh IHt. fcons Hok Hokh Hokt. cbn [forallb] in Hd. apply andb_true_iff in Hd. destruct Hd as [Hd1 Hd2].
        cbn [direct_list] in H. rewrite element_size_leaf in H by auto. rewrite substr_ok in H by (rewrite app_length; lia).
        rewrite skipn_app_exact in H by auto. cbn [bind] in H. bind_inv H. rename a0 into v. bind_inv H. rename a0 into vs'.
        inv H. cbn [zip2 concat]. cbn [fold_right] in HL.
        assert (HO2 : bytes_ok (firstn (leaf_bytes t) b) /\ bytes_ok (skipn (leaf_bytes t) b)).
        { unfold bytes_ok in *. rewrite <- (firstn_skipn (leaf_bytes t) b) in HO. apply Forall_app in HO. tauto. }
        assert (HLf : length (firstn (leaf_bytes t) b) = leaf_bytes t) by (rewrite firstn_length; lia).
        rewrite (IHh (firstn (leaf_bytes t) b) v) by (auto; tauto).
        rewrite (IHts IHt Hokt Hd2 vs' (skipn (leaf_bytes t) b)) with (before := before ++ firstn (leaf_bytes t) b);
          [apply firstn_skipn|rewrite skipn_length; lia|tauto|].
        rewrite app_length, HLf, <- app_assoc, firstn_skipn. exact Hb0. }
    apply (HH []). exact Hb0.
Qed.

Lemma firstn_add : forall A (l : list A) a b, firstn (a + b) l = firstn a l ++ firstn b (skipn a l).
Proof.
  induction l as [|x l IH]; intros [|a] b; cbn [Nat.add firstn skipn app]; auto.
  - rewrite firstn_nil. reflexivity.
  - rewrite IH. reflexivity.
Qed.
Lemma elements_bytes_spec : forall t es, cty_ok t = true -> is_direct t = true ->
  Forall (fun v => wt t v = true) es ->
  length (elements_bytes t es) = (length es * leaf_bytes t)%nat /\ bytes_ok (elements_bytes t es) /\
  forall before after k, length before = (k * leaf_bytes t)%nat ->
    mapM (fun i => sub <- substr (before ++ elements_bytes t es ++ after) (i * leaf_bytes t) (leaf_bytes t);;
                   direct_from_bytes t sub) (seq k (length es)) = Ok es.
Proof.
  intros t es Hok Hd HW. unfold elements_bytes. induction es as [|v es IH].
  - repeat split. constructor.
  - fcons HW Hv Hvs. destruct (elem_bytes_spec t v Hok Hd Hv) as (HL0 & HO0 & HS0).
    destruct (IH Hvs) as (HL1 & HO1 & HS1). cbn [map concat length].
    set (b0 := elem_bytes t v) in *. set (b1 := concat (map (elem_bytes t) es)) in *. unfold bytes in *.
    split; [rewrite app_length; lia|]. split; [apply Forall_app; auto|].
    intros before after k HK. cbn [seq mapM]. rewrite <- HK.
    rewrite substr_ok by (rewrite !app_length; lia). rewrite skipn_app_exact by auto.
    rewrite <- app_assoc, firstn_app_exact by auto. cbn [bind]. rewrite HS0. cbn [bind].
    specialize (HS1 (before ++ b0) after (S k)). rewrite <- app_assoc in HS1. unfold bytes in *.
    rewrite HS1 by (rewrite app_length; lia). reflexivity.
Qed.
Lemma convert_elements : forall t es rest, cty_ok t = true -> is_direct t = true ->
  length es = elements_per_block t -> Forall (fun v => wt t v = true) es ->
  convert_bytes t (elements_bytes t es ++ rest) = Ok es.
Proof.
  intros t es rest Hok Hd HL HW. unfold convert_bytes, from_bytes. rewrite Hd.
  rewrite element_size_leaf by auto. rewrite <- HL.
  destruct (elements_bytes_spec t es Hok Hd HW) as (HLb & HO & HS).
  destruct (Nat.leb_spec (length es * leaf_bytes t) (length (elements_bytes t es ++ rest))) as [H|H];
    [|rewrite app_length in H; lia].
  cbn [abort_unless bind]. apply (HS [] rest 0%nat). reflexivity.
Qed.
Lemma convert_reencode : forall t es old, cty_ok t = true -> is_direct t = true ->
  length es = elements_per_block t -> Forall (fun v => wt t v = true) es ->
  convert_bytes t (reencode t old es) = Ok es.
Proof. intros. apply convert_elements; auto. Qed.
Lemma reencode_length : forall t es old, cty_ok t = true -> is_direct t = true ->
  Forall (fun v => wt t v = true) es -> (length es * leaf_bytes t <= length old)%nat ->
  length (reencode t old es) = length old.
Proof.
  intros t es old Hok Hd HW HL. unfold reencode. rewrite app_length, skipn_length.
  rewrite (proj1 (elements_bytes_spec t es Hok Hd HW)). lia.
Qed.
Lemma skipn_bytes_ok : forall n b, bytes_ok b -> bytes_ok (skipn n b).
Proof. intros n b H. unfold bytes_ok in *. rewrite <- (firstn_skipn n b) in H. apply Forall_app in H. tauto. Qed.
Lemma firstn_bytes_ok : forall n b, bytes_ok b -> bytes_ok (firstn n b).
Proof. intros n b H. unfold bytes_ok in *. rewrite <- (firstn_skipn n b) in H. apply Forall_app in H. tauto. Qed.
Lemma reencode_bytes_ok : forall t es old, cty_ok t = true -> is_direct t = true ->
  Forall (fun v => wt t v = true) es -> bytes_ok old -> bytes_ok (reencode t old es).
Proof.
  intros t es old Hok Hd HW HO. apply Forall_app. split; [apply elements_bytes_spec; auto|].
  apply skipn_bytes_ok; auto.
Qed.
Lemma reencode_twice : forall t es es' old, cty_ok t = true -> is_direct t = true ->
  Forall (fun v => wt t v = true) es -> length es' = length es ->
  reencode t (reencode t old es) es' = reencode t old es'.
Proof.
  intros t es es' old Hok Hd HW HL. unfold reencode. f_equal. rewrite HL.
  apply skipn_app_exact. apply elements_bytes_spec; auto.
Qed.
Lemma reencode_same : forall t es old, cty_ok t = true -> is_direct t = true -> bytes_ok old ->
  convert_bytes t old = Ok es -> reencode t old es = old.
Proof.
  intros t es old Hok Hd HO H. unfold convert_bytes, from_bytes in H. rewrite Hd in H.
  rewrite element_size_leaf in H by auto. bind_inv H.
  destruct (Nat.leb_spec (elements_per_block t * leaf_bytes t) (length old)) as [HLo|HLo]; [|discriminate]. clear Hb a.
  assert (HLe : length es = elements_per_block t) by (apply mapM_length in H; rewrite seq_length in H; auto).
  unfold reencode, elements_bytes. rewrite HLe.
  transitivity (firstn (elements_per_block t * leaf_bytes t) old ++ skipn (elements_per_block t * leaf_bytes t) old);
    [|apply firstn_skipn]. f_equal.
  assert (HG : forall n k es, (k + n <= elements_per_block t)%nat ->
    mapM (fun i => sub <- substr old (i * leaf_bytes t) (leaf_bytes t);; direct_from_bytes t sub) (seq k n) = Ok es ->
    concat (map (elem_bytes t) es) = firstn (n * leaf_bytes t) (skipn (k * leaf_bytes t) old)).
  { clear H HLe es. induction n as [|n IH]; intros k es Hk H; cbn [seq mapM] in H.
    - inv H. reflexivity.
    - bind_inv H. rename a into v. bind_inv H. rename a into vs. inv H. cbn [map concat].
      rewrite substr_ok in Hb by nia. cbn [bind] in Hb.
      rewrite (IH (S k) vs) by (auto; lia).
      rewrite (direct_elem_bytes t (firstn (leaf_bytes t) (skipn (k * leaf_bytes t) old)) v); auto.
      + cbn [Nat.mul].
        replace (skipn (leaf_bytes t + k * leaf_bytes t) old) with (skipn (k * leaf_bytes t + leaf_bytes t) old) by (f_equal; lia).
        rewrite <- skipn_skipn'. set (r := skipn (k * leaf_bytes t) old).
        symmetry. apply firstn_add.
      + rewrite firstn_length, skipn_length. nia.
      + apply firstn_bytes_ok, skipn_bytes_ok; auto. }
  rewrite (HG (elements_per_block t) 0%nat es) by auto. reflexivity.
Qed.

Theorem convert_bytes_surj : forall t vs n, cty_ok t = true -> enough_bytes t n ->
  length vs = elements_per_block t -> Forall (fun v => wt t v = true) vs ->
  exists b, length b = n /\ bytes_ok b /\ convert_bytes t b = Ok vs.
Proof.
  intros t vs n Hok HE HL HW. unfold enough_bytes in HE.
  assert (HZ : forall k, bytes_ok (repeat 0 k)).
  { intros k. apply Forall_forall. intros x Hx. apply repeat_spec in Hx. lia. }
  destruct (is_direct t) eqn:Hd.
  - exists (reencode t (repeat 0 n) vs). split.
    { rewrite reencode_length by (auto; rewrite repeat_length; lia). apply repeat_length. }
    split; [apply reencode_bytes_ok; auto|]. apply convert_reencode; auto.
  - unfold convert_bytes, from_bytes. rewrite Hd. unfold elements_per_block in HL. rewrite Hd in HL. destruct vs as [|v [|v' vs]]; try discriminate.
    fcons HW Hv _'.
    set (k := (n - 16 - (leaf_bytes t - last_bytes t))%nat).
    destruct (sample_false_surj t v (repeat 0 k) Hok Hv) as (B & pre & [B' r] & HB & HLp & HO & HS).
    exists (le_encode 16 B ++ pre ++ repeat 0 k).
    split; [rewrite !app_length, repeat_length, le_encode_length; lia|].
    split; [apply Forall_app; split; [apply le_encode_bytes|apply Forall_app; split; [exact HO|apply HZ]]|].
    rewrite substr_ok by lia. cbn [skipn]. rewrite firstn_app_exact by apply le_encode_length. cbn [bind].
    assert (HI : int_from_bytes 128 (le_encode 16 B) = Ok B).
    { destruct (read_word 128 B [] eq_refl HB) as (_ & H & _). exact H. }
    rewrite HI. cbn [bind]. rewrite substr_from_ok by (rewrite app_length, le_encode_length; lia).
    rewrite skipn_app_exact by apply le_encode_length. cbn [bind]. rewrite HS. reflexivity.
Qed.
