(** Value type protos and the C++ types they describe. *)
From Coq Require Import List NArith ZArith Lia Bool ZifyBool ZifyNat ZifyN.
From Verif Require Import Base ListUtil ValueTypesModel ValueTypesSpec ValueTypesProofs
  ConvProofs BitsProofs DpfModel.
Import ListNotations.
Ltac Zify.zify_post_hook ::= Z.div_mod_to_equations.
Open Scope N_scope.

Lemma denotes_inv : forall p T, denotes p T ->
  match T with
  | TInt w => p = PTInteger (Z.of_N w)
  | TMod w m => exists i, p = PTIntModN (Z.of_N w) i /\ encodes i m
  | TXor w => p = PTXor (Z.of_N w)
  | TTup ts => exists ps, p = PTTuple ps /\ Forall2 denotes ps ts
  end.
Proof. intros p T H. destruct H; eauto. Qed.

Lemma encodes_fun : forall i x y, encodes i x -> encodes i y -> x = y.
Proof. intros [|v|h l] x y; cbn; intros; try easy; congruence. Qed.

Lemma encodes_bound : forall i x, encodes i x -> x < P128.
Proof. intros i x H. apply vinteger_to_uint128_encodes in H. eapply vinteger_to_uint128_bound; eauto. Qed.

Lemma to_value_type_denotes : forall T, cty_ok T = true -> denotes (to_value_type T) T.
Proof.
  induction T as [w|w m|w|ts IH] using cty_ind'; intros Hok; cbn [to_value_type];
    try constructor.
  - apply cty_ok_mod in Hok. destruct Hok as (Hw & H0 & H1). apply encodes_to_vinteger.
    pose proof (cwidth_le128 w Hw). lia.
  - apply cty_ok_tup in Hok. destruct Hok as [_ Hok].
    induction ts as [|t ts IHts]; cbn [map]; constructor;
      fcons IH IHh IHt; fcons Hok Hokh Hokt; auto.
Qed.

Lemma denotes_fun : forall T T' p, denotes p T -> denotes p T' -> T = T'.
Proof.
  induction T as [w|w m|w|ts IH] using cty_ind'; intros T' p H H';
    apply denotes_inv in H; apply denotes_inv in H'; cbv beta iota in H.
  - subst p. destruct T'; try (destruct H' as (? & H' & _)); try discriminate.
    injection H' as HE. f_equal. lia.
  - destruct H as (i & -> & Hi). destruct T'; try (destruct H' as (j & H' & Hj)); try discriminate.
    injection H' as HE ->. f_equal; [lia|]. eapply encodes_fun; eauto.
  - subst p. destruct T'; try (destruct H' as (? & H' & _)); try discriminate.
    injection H' as HE. f_equal. lia.
  - destruct H as (ps & -> & H). destruct T' as [| |ts'|]; try (destruct H' as (ps' & HE & H')); try discriminate.
    injection HE as <-. f_equal.
    revert ps ts' H H'. induction ts as [|t ts IHts]; intros ps ts' H H'.
    + inversion H; subst. inversion H'; subst. reflexivity.
    + fcons IH IHh IHt. inversion H; subst. inversion H'; subst. f_equal; eauto.
Qed.

Lemma value_types_are_equal_denotes : forall T p, cty_ok T = true ->
  (value_types_are_equal (to_value_type T) p = Ok true <-> denotes p T).
Proof.
  induction T as [w|w m|w|ts IH] using cty_ind'; intros p Hok; cbn [to_value_type]; split; intros H.
  - destruct p; cbn in H; try discriminate. inv H. apply Z.eqb_eq in H1. subst. constructor.
  - apply denotes_inv in H. subst. cbn. rewrite Z.eqb_refl. reflexivity.
  - destruct p; cbn [value_types_are_equal] in H; try discriminate.
    apply cty_ok_mod in Hok. destruct Hok as (Hw & H0 & H1). pose proof (cwidth_le128 w Hw).
    rewrite vinteger_round_trip in H by lia. cbn [bind] in H. bind_inv H. inv H.
    apply andb_true_iff in H4. destruct H4 as [Ha Hb'].
    apply Z.eqb_eq in Ha. apply N.eqb_eq in Hb'. subst. constructor.
    apply vinteger_to_uint128_encodes. auto.
  - apply denotes_inv in H. destruct H as (i & -> & He). cbn [value_types_are_equal].
    apply cty_ok_mod in Hok. destruct Hok as (Hw & H0 & H1). pose proof (cwidth_le128 w Hw).
    rewrite vinteger_round_trip by lia. cbn [bind].
    apply vinteger_to_uint128_encodes in He. rewrite He. cbn [bind].
    rewrite Z.eqb_refl, N.eqb_refl. reflexivity.
  - destruct p; cbn in H; try discriminate. inv H. apply Z.eqb_eq in H1. subst. constructor.
  - apply denotes_inv in H. subst. cbn. rewrite Z.eqb_refl. reflexivity.
  - destruct p; cbn [value_types_are_equal] in H; try discriminate. rename els into ps.
    apply cty_ok_tup in Hok. destruct Hok as [_ Hok]. constructor.
    rewrite map_length in H. destruct (Nat.eqb_spec (length ts) (length ps)) as [HL|]; [|discriminate].
    revert ps HL H. induction ts as [|t ts IHts]; intros [|p ps] HL H; try discriminate; constructor;
      fcons IH IHh IHt; fcons Hok Hokh Hokt; cbn [map types_equal_list] in H;
      bind_inv H; bind_inv H; inv H; apply andb_true_iff in H1; destruct H1; subst.
    + apply IHh; auto.
    + apply IHts; auto.
  - apply denotes_inv in H. destruct H as (ps & -> & HF). cbn [value_types_are_equal].
    rewrite map_length, (Forall2_length _ _ _ _ _ HF), Nat.eqb_refl.
    apply cty_ok_tup in Hok. destruct Hok as [_ Hok].
    revert ps HF. induction ts as [|t ts IHts]; intros ps HF; inversion HF; subst; cbn [map types_equal_list]; auto.
    fcons IH IHh IHt; fcons Hok Hokh Hokt.
    rewrite (proj2 (IHh _ Hokh)) by auto. cbn [bind]. rewrite IHts by auto. reflexivity.
Qed.

Lemma vinteger_eqb_eq : forall a b, vinteger_eqb a b = true <-> a = b.
Proof.
  intros [|v|h l] [|v'|h' l']; cbn; split; intros H; try discriminate; auto.
  - apply N.eqb_eq in H. congruence.
  - inv H. apply N.eqb_refl.
  - apply andb_true_iff in H. rewrite !N.eqb_eq in H. destruct H. congruence.
  - inv H. rewrite !N.eqb_refl. reflexivity.
Qed.

Lemma ptype_eqb_eq : forall a b, ptype_eqb a b = true <-> a = b.
Proof.
  induction a as [|w|w m|w|ts IH] using ptype_ind'; intros b; destruct b; cbn [ptype_eqb];
    split; intros H; try discriminate; auto.
  - apply Z.eqb_eq in H. congruence.
  - inv H. apply Z.eqb_refl.
  - apply andb_true_iff in H. rewrite Z.eqb_eq, vinteger_eqb_eq in H. destruct H. congruence.
  - inv H. rewrite Z.eqb_refl. apply vinteger_eqb_eq. reflexivity.
  - apply Z.eqb_eq in H. congruence.
  - inv H. apply Z.eqb_refl.
  - f_equal. revert els H. induction ts as [|t ts IHts]; intros [|p els] H; try discriminate; auto.
    fcons IH IHh IHt. cbn [all2] in H. apply andb_true_iff in H. destruct H as [H1 H2].
    f_equal; [apply IHh; auto|apply IHts; auto].
  - inv H. induction els as [|t ts IHts]; auto. fcons IH IHh IHt. cbn [all2].
    rewrite (proj2 (IHh t)) by auto. apply IHts; auto.
Qed.

(** * BitsNeeded depends only on the described type. *)
Definition optden (f f' : option ptype) : Prop :=
  match f, f' with
  | None, None => True
  | Some p, Some q => exists w m i j, p = PTIntModN w i /\ q = PTIntModN w j /\ encodes i m /\ encodes j m
  | _, _ => False
  end.
Definition relcount (r r' : res (option ptype * Z * Z)) : Prop :=
  match r, r' with
  | Ok (f, a, b), Ok (f', a', b') => optden f f' /\ a = a' /\ b = b'
  | Err c, Err c' => c = c'
  | Crash, Crash => True
  | UB, UB => True
  | _, _ => False
  end.

Lemma is_mod_denotes : forall p T, denotes p T -> is_int_mod_n p = is_mod T.
Proof. intros p T H. destruct H; reflexivity. Qed.

Lemma bits_count_denotes : forall ts ps f f' a b,
  Forall2 denotes ps ts -> Forall (fun t => cty_ok t = true) ts -> optden f f' ->
  relcount (bits_count ps f a b) (bits_count (map to_value_type ts) f' a b).
Proof.
  induction ts as [|t ts IH]; intros ps f f' a b HF Hok Hf.
  - inversion HF; subst. cbn. auto.
  - apply Forall2_cons_r_inv in HF. destruct HF as (x & l & -> & H1 & H3).
    cbn [map bits_count]. fcons Hok Hokh Hokt. rewrite (is_mod_denotes x t) by auto. rewrite to_value_type_mod.
    destruct (is_mod t) eqn:Em; [|apply IH; auto].
    destruct t as [|w m| |]; try discriminate.
    pose proof (to_value_type_denotes _ Hokh) as HD.
    apply denotes_inv in H1. destruct H1 as (i & -> & Hi).
    apply denotes_inv in HD. destruct HD as (i' & HE & Hi').
    destruct f as [p|], f' as [q|]; cbn in Hf; try contradiction.
    + destruct Hf as (w0 & m0 & j & j' & -> & -> & Hj & Hj').
      rewrite HE. cbn [value_types_are_equal].
      rewrite (proj2 (vinteger_to_uint128_encodes i m)) by auto.
      rewrite (proj2 (vinteger_to_uint128_encodes i' m)) by auto.
      rewrite (proj2 (vinteger_to_uint128_encodes j m0)) by auto.
      rewrite (proj2 (vinteger_to_uint128_encodes j' m0)) by auto. cbn [bind].
      destruct ((Z.of_N w =? w0)%Z && (m =? m0)); [|cbn; auto].
      apply IH; auto. cbn [optden]. exists w0, m0, j, j'. auto.
    + apply IH; auto. cbn [optden]. exists (Z.of_N w), m, i, i'. rewrite HE. auto.
Qed.

Lemma bits_needed_denotes : forall F T p sec, denotes p T -> cty_ok T = true ->
  bits_needed F p sec = bits_needed F (to_value_type T) sec.
Proof.
  intros F. induction T as [w|w m|w|ts IH] using cty_ind'; intros p sec HD Hok;
    apply denotes_inv in HD; cbv beta iota in HD.
  - subst. reflexivity.
  - destruct HD as (i & -> & Hi). cbn [to_value_type bits_needed].
    apply cty_ok_mod in Hok. destruct Hok as (Hw & H0 & H1). pose proof (cwidth_le128 w Hw).
    rewrite vinteger_round_trip by lia.
    rewrite (proj2 (vinteger_to_uint128_encodes i m)) by auto. reflexivity.
  - subst. reflexivity.
  - destruct HD as (ps & -> & HF). apply cty_ok_tup in Hok. destruct Hok as [_ Hok].
    cbn [to_value_type bits_needed].
    pose proof (bits_count_denotes ts ps None None 0 0 HF Hok I) as HC.
    destruct (bits_count ps None 0 0) as [[[f a] b]| | |];
      destruct (bits_count (map to_value_type ts) None 0 0) as [[[f' a'] b']| | |];
      cbn in HC; try contradiction; subst; cbn [bind]; auto.
    destruct HC as (Hf & -> & ->).
    assert (HO : forall n acc, bits_other (fun el => bits_needed F el (f_add_log2 F sec (Z.to_N b'))) ps n acc
      = bits_other (fun el => bits_needed F el (f_add_log2 F sec (Z.to_N b'))) (map to_value_type ts) n acc).
    { clear Hf. intros n. revert ps n HF. induction ts as [|t ts IHts]; intros ps n HF acc;
        [inversion HF; subst; destruct n; reflexivity|].
      apply Forall2_cons_r_inv in HF. destruct HF as (x & l & -> & HF1 & HF2).
      destruct n; cbn [map bits_other]; auto.
      fcons IH IHh IHt; fcons Hok Hokh Hokt.
      rewrite (IHh x) by auto. destruct (bits_needed F (to_value_type t) _); cbn [bind]; auto.
      destruct (int_or_ub _); cbn [bind]; auto. }
    rewrite HO. destruct (bits_other _ (map to_value_type ts) _); cbn [bind]; auto.
    destruct f as [p|], f' as [q|]; cbn in Hf; try contradiction; auto.
    destruct Hf as (w0 & m0 & j & j' & -> & -> & Hj & Hj').
    rewrite (proj2 (vinteger_to_uint128_encodes j m0)) by auto.
    rewrite (proj2 (vinteger_to_uint128_encodes j' m0)) by auto. reflexivity.
Qed.

Lemma bits_count_nonneg : forall ps f a b f' a' b',
  bits_count ps f a b = Ok (f', a', b') ->
  (a <= a' /\ b <= b' /\ a' + b' = a + b + Z.of_nat (length ps))%Z /\
  (f' = None -> f = None /\ a' = a) .
Proof.
  induction ps as [|p ps IH]; intros f a b f' a' b' H; cbn [bits_count length] in *.
  - inv H. split; [lia|auto].
  - destruct (is_int_mod_n p).
    + destruct f as [g|].
      * bind_inv H. destruct a0; [|discriminate]. apply IH in H. destruct H as [H H2].
        split; [lia|]. intros E. apply H2 in E. destruct E; discriminate.
      * apply IH in H. destruct H as [H H2]. split; [lia|]. intros E. apply H2 in E. destruct E; discriminate.
    + apply IH in H. destruct H as [H H2]. split; [lia|]. auto.
Qed.

Lemma num_bytes_lower : forall F n b m sec z,
  get_num_bytes_required F n b m sec = Ok z -> (16 <= z)%Z.
Proof.
  intros F n b m sec z H. unfold get_num_bytes_required in H. bind_inv H. inv H.
  unfold check_parameters in Hb.
  destruct (n <=? 0)%Z eqn:E1; [discriminate|]. destruct (b <=? 0)%Z eqn:E2; [discriminate|].
  clear Hb. assert (0 <= (b + 7) / 8)%Z by lia. nia.
Qed.

(** BitsNeeded is positive; at least 128 for types that cannot be converted directly. *)
Lemma bits_needed_lower : forall F T sec z, cty_ok T = true ->
  bits_needed F (to_value_type T) sec = Ok z ->
  (1 <= z)%Z /\ (is_direct T = false -> (128 <= z)%Z).
Proof.
  intros F. induction T as [w|w m|w|ts IH] using cty_ind'; intros sec z Hok H.
  - cbn in H. inv H. cbn in Hok. widths Hok; cbn; split; lia || discriminate.
  - cbn [to_value_type bits_needed] in H. bind_inv H. bind_inv H. inv H.
    unfold get_num_bytes_required in Hb0. bind_inv Hb0. inv Hb0.
    change (1 - 1)%Z with 0%Z. lia.
  - cbn in H. inv H. cbn in Hok. widths Hok; cbn; split; lia || discriminate.
  - apply cty_ok_tup in Hok. destruct Hok as [Hne Hok]. cbn [to_value_type bits_needed] in H.
    bind_inv H. destruct a as [[f nmod] nother]. bind_inv H. bind_inv H. apply int_or_ub_inv in H. destruct H as [-> _].
    pose proof Hb as HC. apply bits_count_spec in Hb. destruct Hb as ([-> ->] & Hf & HFF).
    cbv beta iota in Hf.
    assert (HO : forall sec ts n acc z, (0 <= acc)%Z ->
      Forall (fun t => forall sec z, cty_ok t = true -> bits_needed F (to_value_type t) sec = Ok z ->
         (1 <= z)%Z /\ (is_direct t = false -> (128 <= z)%Z)) ts ->
      Forall (fun t => cty_ok t = true) ts ->
      bits_other (fun el => bits_needed F el sec) (map to_value_type ts) n acc = Ok z ->
      (acc <= z)%Z /\ ((1 <= n)%nat -> (1 <= z)%Z) /\
      (n = length ts -> forallb is_direct ts = false -> (128 <= z)%Z)).
    { clear. intros sec. induction ts as [|t ts IHts]; intros n acc z Hacc HH Hok H.
      { destruct n; cbn [map bits_other] in H; [|discriminate]. inv H.
        cbn [length forallb]. repeat split; try lia; discriminate. }
      destruct n as [|n]; cbn [map bits_other] in H.
      { inv H. cbn [length]. repeat split; try lia. }
      bind_inv H. bind_inv H. apply int_or_ub_inv in Hb0. destruct Hb0 as [-> _].
      fcons HH H1 H2. fcons Hok Hokh Hokt.
      apply H1 in Hb; auto. destruct Hb as [Ha Hb]. apply IHts in H; auto; [|lia].
      destruct H as (Hc & Hd & He). cbn [forallb length]. repeat split; try lia.
      intros Hn HF. apply andb_false_iff in HF. destruct HF as [HF|HF]; [specialize (Hb HF); lia|].
      specialize (He ltac:(lia) HF). lia. }
    apply HO in Hb0; auto; [|lia]. destruct Hb0 as (HA & HB & HCC).
    destruct f as [[| | |wm i|]|]; try discriminate.
    + bind_inv Hb1. bind_inv Hb1. apply int_or_ub_inv in Hb1. destruct Hb1 as [-> _].
      match goal with H : get_num_bytes_required _ _ _ _ _ = Ok _ |- _ => apply num_bytes_lower in H end.
      lia.
    + inv Hb1. destruct (find is_mod ts) as [tm|] eqn:Hfind; [discriminate|].
      assert (Hn : nothers ts = length ts).
      { clear -Hfind. induction ts as [|t ts IHts]; auto. cbn [find nothers length] in *.
        destruct (is_mod t); [discriminate|]. rewrite IHts; auto. }
      rewrite Hn in *. replace (Z.to_nat (0 + Z.of_nat (length ts))) with (length ts) in * by lia.
      destruct ts as [|t ts]; [congruence|]. specialize (HB ltac:(cbn; lia)).
      split; [lia|]. cbn [is_direct]. intros HD. specialize (HCC eq_refl HD). lia.
Qed.

(** * Conversion from bytes only succeeds when there are enough bytes. *)
Lemma int_from_bytes_len : forall w b x, int_from_bytes w b = Ok x -> length b = nbytes w.
Proof.
  intros w b x H. unfold int_from_bytes in H. bind_inv H. apply abort_unless_ok in Hb.
  apply Nat.eqb_eq in Hb. auto.
Qed.
Lemma substr_ok_inv : forall b pos n s, substr b pos n = Ok s ->
  (pos <= length b)%nat /\ s = firstn n (skipn pos b).
Proof. intros b pos n s H. unfold substr in H. destruct (Nat.leb_spec pos (length b)); inv H; auto. Qed.
Lemma substr_from_ok_inv : forall b pos s, substr_from b pos = Ok s ->
  (pos <= length b)%nat /\ s = skipn pos b.
Proof. intros b pos s H. unfold substr_from in H. destruct (Nat.leb_spec pos (length b)); inv H; auto. Qed.

Lemma sample_true_inv : forall t block rem v st,
  sample_and_update t true block rem = Ok (v, st) ->
  (leaf_bytes t <= length rem)%nat /\ snd st = skipn (leaf_bytes t) rem.
Proof.
  assert (HL : forall w (rem : bytes) x, (sub <- substr rem 0 (nbytes w);; int_from_bytes w sub) = Ok x ->
    (nbytes w <= length rem)%nat).
  { intros w rem x H. bind_inv H. apply int_from_bytes_len in H. apply substr_ok_inv in Hb.
    destruct Hb as [_ ->]. cbn [skipn] in H. rewrite firstn_length in H. lia. }
  induction t as [w|w m|w|ts IH] using cty_ind'; intros block rem v st H; cbn [sample_and_update leaf_bytes] in *.
  1-3: bind_inv H; bind_inv H; bind_inv H; inv H; cbn [snd];
      apply substr_from_ok_inv in Hb1; destruct Hb1 as [? ->]; auto.
  bind_inv H. destruct a as [xs st']. inv H.
  assert (HH : forall n c block rem xs st, sample_list sample_and_update n true ts c block rem = Ok (xs, st) ->
    (fold_right (fun t acc => leaf_bytes t + acc) 0 ts <= length rem)%nat /\
    snd st = skipn (fold_right (fun t acc => leaf_bytes t + acc)%nat 0%nat ts) rem).
  { clear Hb. induction ts as [|t ts IHts]; intros n c blk rm xs' st'' H; cbn [sample_list fold_right] in *.
    - inv H. cbn. split; [lia|auto].
    - fcons IH IHh IHt. cbn [orb] in H. bind_inv H. destruct a as [x [b' r']]. bind_inv H. destruct a as [xs2 st2]. inv H.
      apply IHh in Hb. destruct Hb as [H1 H2]. cbn [snd] in H2. subst r'.
      apply IHts in Hb0; auto. destruct Hb0 as [H3 H4]. rewrite skipn_length in H3.
      split; [lia|]. rewrite H4, skipn_skipn'. reflexivity. }
  eapply HH; eauto.
Qed.

Lemma sample_false_inv : forall t block rem v st,
  sample_and_update t false block rem = Ok (v, st) ->
  (leaf_bytes t - last_bytes t <= length rem)%nat.
Proof.
  induction t as [w|w m|w|ts IH] using cty_ind'; intros block rem v st H; cbn [sample_and_update] in *.
  1-3: cbn [leaf_bytes last_bytes]; lia.
  change (last_bytes (TTup ts)) with (last_of ts). cbn [leaf_bytes].
  bind_inv H. destruct a as [xs st']. inv H.
  assert (HH : forall c block rem xs st,
    sample_list sample_and_update (length ts + c) false ts c block rem = Ok (xs, st) ->
    (fold_right (fun t acc => leaf_bytes t + acc) 0 ts - last_of ts <= length rem)%nat).
  { clear Hb. induction ts as [|t ts IHts]; intros c blk rm xs' st'' H; cbn [sample_list] in *.
    - cbn. lia.
    - fcons IH IHh IHt. cbn [orb] in H. bind_inv H. destruct a as [x [b' r']]. bind_inv H. destruct a as [xs2 st2]. inv H.
      destruct ts as [|t' ts].
      + replace (S c <? length [t] + c)%nat with false in Hb
            by (symmetry; apply Nat.ltb_ge; cbn [length]; lia).
        cbn [fold_right]. change (last_of [t]) with (last_bytes t). apply IHh in Hb. lia.
      + replace (S c <? length (t :: t' :: ts) + c)%nat with true in Hb
            by (symmetry; apply Nat.ltb_lt; cbn [length]; lia).
        rewrite last_of_cons.
        apply sample_true_inv in Hb. destruct Hb as [H1 H2]. cbn [snd] in H2. subst r'.
        remember (t' :: ts) as tl. cbn [fold_right].
        cbn [length] in Hb0. replace (S (length tl) + c)%nat with (length tl + S c)%nat in Hb0 by lia.
        apply IHts in Hb0; auto. rewrite skipn_length in Hb0. lia. }
  eapply (HH 0%nat). rewrite Nat.add_0_r. eauto.
Qed.

Lemma convert_bytes_enough : forall t b vs, cty_ok t = true -> convert_bytes t b = Ok vs ->
  enough_bytes t (length b).
Proof.
  intros t b vs Hok H. unfold enough_bytes. unfold convert_bytes, from_bytes in H.
  destruct (is_direct t) eqn:Hd.
  - bind_inv H. apply abort_unless_ok in Hb. apply Nat.leb_le in Hb.
    rewrite element_size_leaf in Hb by auto. auto.
  - bind_inv H. bind_inv Hb. bind_inv Hb. bind_inv Hb. bind_inv Hb. destruct a3 as [v st].
    apply sample_false_inv in Hb3. apply substr_from_ok_inv in Hb2. destruct Hb2 as [? ->].
    rewrite skipn_length in Hb3. lia.
Qed.

(** ... and crashes otherwise. *)
Definition ok_or_crash {A} (r : res A) : Prop := match r with Ok _ | Crash => True | _ => False end.
Lemma ok_or_crash_bind : forall A B (r : res A) (f : A -> res B), ok_or_crash r ->
  (forall x, r = Ok x -> ok_or_crash (f x)) -> ok_or_crash (bind r f).
Proof. intros A B [x| | |] f H1 H2; cbn in *; auto. Qed.
Lemma ok_or_crash_substr : forall b pos n, ok_or_crash (substr b pos n).
Proof. intros. unfold substr. destruct (Nat.leb _ _); exact I. Qed.
Lemma ok_or_crash_substr_from : forall b pos, ok_or_crash (substr_from b pos).
Proof. intros. unfold substr_from. destruct (Nat.leb _ _); exact I. Qed.
Lemma ok_or_crash_abort : forall b, ok_or_crash (abort_unless b).
Proof. intros []; exact I. Qed.
Lemma ok_or_crash_int : forall w b, ok_or_crash (int_from_bytes w b).
Proof. intros. unfold int_from_bytes. apply ok_or_crash_bind; [apply ok_or_crash_abort|]. intros; exact I. Qed.
Lemma ok_or_crash_mapM : forall A B (f : A -> res B) l, (forall x, ok_or_crash (f x)) -> ok_or_crash (mapM f l).
Proof.
  intros A B f l H. induction l as [|a l IH]; cbn [mapM]; [exact I|].
  apply ok_or_crash_bind; auto. intros. apply ok_or_crash_bind; auto. intros; exact I.
Qed.
Lemma ok_or_crash_direct : forall t b, ok_or_crash (direct_from_bytes t b).
Proof.
  induction t as [w|w m|w|ts IH] using cty_ind'; intros b; cbn [direct_from_bytes].
  - apply ok_or_crash_bind; [apply ok_or_crash_int|intros; exact I].
  - exact I.
  - apply ok_or_crash_bind; [apply ok_or_crash_int|intros; exact I].
  - apply ok_or_crash_bind; [apply ok_or_crash_abort|intros _ _].
  apply ok_or_crash_bind; [|intros; exact I]. generalize 0%nat as off.
  induction ts as [|t ts IHts]; intros off; cbn [direct_list]; [exact I|]. fcons IH IHh IHt.
  apply ok_or_crash_bind; [apply ok_or_crash_substr|intros sub _].
  apply ok_or_crash_bind; [apply IHh|intros; apply ok_or_crash_bind; [apply IHts; auto|intros; exact I]].
Qed.
Lemma ok_or_crash_sample : forall t u block rem, ok_or_crash (sample_and_update t u block rem).
Proof.
  induction t as [w|w m|w|ts IH] using cty_ind'; intros u block rem; cbn [sample_and_update].
  1-3: destruct u; [|exact I]; apply ok_or_crash_bind; [apply ok_or_crash_substr|intros];
    apply ok_or_crash_bind; [apply ok_or_crash_int|intros];
    apply ok_or_crash_bind; [apply ok_or_crash_substr_from|intros; exact I].
  apply ok_or_crash_bind; [|intros [? ?] _; exact I].
  generalize 0%nat as c. generalize (length ts) as n. revert block rem.
  induction ts as [|t ts IHts]; intros block rem n c; cbn [sample_list]; [exact I|]. fcons IH IHh IHt.
  apply ok_or_crash_bind; [apply IHh|intros [x [b' r']] _].
  apply ok_or_crash_bind; [apply IHts; auto|intros [? ?] _; exact I].
Qed.
Lemma ok_or_crash_from_bytes : forall t b, ok_or_crash (from_bytes t b).
Proof.
  intros t b. unfold from_bytes. destruct (is_direct t); [apply ok_or_crash_direct|].
  apply ok_or_crash_bind; [apply ok_or_crash_substr|intros].
  apply ok_or_crash_bind; [apply ok_or_crash_int|intros].
  apply ok_or_crash_bind; [apply ok_or_crash_substr_from|intros].
  apply ok_or_crash_bind; [apply ok_or_crash_sample|intros [? ?] _; exact I].
Qed.
Lemma ok_or_crash_convert : forall t b, ok_or_crash (convert_bytes t b).
Proof.
  intros t b. unfold convert_bytes. destruct (is_direct t).
  - apply ok_or_crash_bind; [apply ok_or_crash_abort|intros].
    apply ok_or_crash_mapM. intros. apply ok_or_crash_bind; [apply ok_or_crash_substr|].
    intros; apply ok_or_crash_from_bytes.
  - apply ok_or_crash_bind; [apply ok_or_crash_from_bytes|intros; exact I].
Qed.

(** The specification's count of bytes. *)
Lemma leaf_sizes_sum : forall t, list_sum (leaf_sizes t) = leaf_bytes t.
Proof.
  induction t as [w|w m|w|ts IH] using cty_ind';
    try (cbn [leaf_sizes leaf_bytes list_sum fold_right]; unfold nbytes; lia).
  cbn [leaf_sizes leaf_bytes]. induction ts as [|t ts IHts]; [reflexivity|]. fcons IH IHh IHt.
  cbn [flat_map fold_right]. rewrite list_sum_app, IHh, IHts; auto.
Qed.
Lemma leaf_sizes_not_nil : forall t, cty_ok t = true -> leaf_sizes t <> [].
Proof.
  intros t H HN. pose proof (leaf_sizes_sum t) as HS. rewrite HN in HS.
  pose proof (leaf_bytes_pos t H). cbn in HS. lia.
Qed.
Lemma leaf_sizes_last : forall t, cty_ok t = true -> last (leaf_sizes t) 0%nat = last_bytes t.
Proof.
  induction t as [w|w m|w|ts IH] using cty_ind'; intros Hok; try reflexivity.
  change (last_bytes (TTup ts)) with (last_of ts). cbn [leaf_sizes].
  apply cty_ok_tup in Hok. destruct Hok as [_ Hok].
  induction ts as [|t [|t' ts] IHts]; [reflexivity| |]; fcons IH IHh IHt; fcons Hok Hokh Hokt.
  - cbn [flat_map]. rewrite app_nil_r. apply IHh. auto.
  - rewrite last_of_cons, <- IHts by auto. remember (t' :: ts) as tl. cbn [flat_map].
    assert (HN : flat_map leaf_sizes tl <> []).
    { subst tl. cbn [flat_map]. fcons Hokt H1 H2. intros HN. apply app_eq_nil in HN. destruct HN as [HN _].
      exact (leaf_sizes_not_nil t' H1 HN). }
    destruct (exists_last HN) as (l & a & HE). rewrite HE, app_assoc, !last_last. reflexivity.
Qed.
Lemma has_mod_direct : forall t, cty_ok t = true -> has_mod t = negb (is_direct t).
Proof.
  induction t as [w|w m|w|ts IH] using cty_ind'; intros Hok; try reflexivity.
  cbn [has_mod is_direct]. apply cty_ok_tup in Hok. destruct Hok as [_ Hok].
  induction ts as [|t ts IHts]; [reflexivity|]. fcons IH IHh IHt; fcons Hok Hokh Hokt.
  cbn [existsb forallb]. rewrite IHh, IHts, negb_andb; auto.
Qed.
Lemma enough_bytes_consumed : forall t n, cty_ok t = true ->
  enough_bytes t n <-> (bytes_consumed t <= n)%nat.
Proof.
  intros t n Hok. unfold enough_bytes, bytes_consumed. rewrite has_mod_direct by auto.
  rewrite leaf_sizes_sum. destruct (is_direct t) eqn:Hd; cbn [negb].
  - assert (HE : elements_per_block t = Nat.max 1 (Nat.div 16 (leaf_bytes t))).
    { unfold elements_per_block. rewrite Hd, total_bits_leaf by auto. pose proof (leaf_bytes_pos t Hok).
      destruct (8 * N.of_nat (leaf_bytes t) <=? 128) eqn:E.
      - replace (128 / (8 * N.of_nat (leaf_bytes t))) with (16 / N.of_nat (leaf_bytes t)).
        + rewrite N2Nat.inj_div, Nat2N.id. change (N.to_nat 16) with 16%nat.
          assert (1 <= 16 / leaf_bytes t)%nat; [|lia].
          apply Nat.div_le_lower_bound; lia.
        + change 128 with (8 * 16). rewrite N.div_mul_cancel_l; lia.
      - rewrite Nat.div_small by lia. reflexivity. }
    rewrite HE. reflexivity.
  - pose proof (leaf_sizes_not_nil t Hok) as HN. pose proof (app_removelast_last 0%nat HN) as HA.
    pose proof (leaf_sizes_sum t) as HS. rewrite HA, list_sum_app in HS. cbn [list_sum fold_right] in HS.
    rewrite leaf_sizes_last in HS by auto. lia.
Qed.

(** * ValidateValue on an equivalent description of the type. *)
Lemma validate_value_denotes : forall T p v, denotes p T -> cty_ok T = true ->
  validate_value p v = validate_value (to_value_type T) v.
Proof.
  induction T as [w|w m|w|ts IH] using cty_ind'; intros p v HD Hok;
    apply denotes_inv in HD; cbv beta iota in HD.
  - subst. reflexivity.
  - destruct HD as (i & -> & Hi). cbn [to_value_type validate_value].
    apply cty_ok_mod in Hok. destruct Hok as (Hw & H0 & H1). pose proof (cwidth_le128 w Hw).
    rewrite vinteger_round_trip by lia.
    rewrite (proj2 (vinteger_to_uint128_encodes i m)) by auto. reflexivity.
  - subst. reflexivity.
  - destruct HD as (ps & -> & HF). apply cty_ok_tup in Hok. destruct Hok as [_ Hok].
    cbn [to_value_type validate_value]. destruct v as [| |vs| |]; auto.
    rewrite map_length, (Forall2_length _ _ _ _ _ HF). destruct (negb _); auto.
    revert ps vs HF. induction ts as [|t ts IHts]; intros ps vs HF.
    + inversion HF; subst. reflexivity.
    + apply Forall2_cons_r_inv in HF. destruct HF as (x & l & -> & HF1 & HF2).
      fcons IH IHh IHt; fcons Hok Hokh Hokt. cbn [map validate_value_list].
      destruct vs as [|v vs]; auto. rewrite (IHh x) by auto.
      destruct (validate_value (to_value_type t) v); cbn [bind]; auto.
Qed.

(** ValidateValueType accepts the description of every C++ type. *)
Lemma validate_value_type_denotes : forall T p, denotes p T -> cty_ok T = true ->
  validate_value_type p = Ok tt.
Proof.
  induction T as [w|w m|w|ts IH] using cty_ind'; intros p HD Hok;
    apply denotes_inv in HD; cbv beta iota in HD.
  - subst. cbn in Hok. widths Hok; reflexivity.
  - destruct HD as (i & -> & Hi). cbn [validate_value_type].
    apply cty_ok_mod in Hok. destruct Hok as (Hw & H0 & H1).
    erewrite validate_integer_value_encodes by (eauto; lia).
    widths Hw; reflexivity.
  - subst. cbn in Hok. widths Hok; reflexivity.
  - destruct HD as (ps & -> & HF). apply cty_ok_tup in Hok. destruct Hok as [_ Hok].
    cbn [validate_value_type]. revert ps HF. induction ts as [|t ts IHts]; intros ps HF.
    + inversion HF; subst. reflexivity.
    + apply Forall2_cons_r_inv in HF. destruct HF as (x & l & -> & HF1 & HF2).
      fcons IH IHh IHt; fcons Hok Hokh Hokt. cbn [iterM].
      rewrite (IHh x) by auto. cbn [bind]. auto.
Qed.
