(** Proofs about the dense PIR client and server. *)
From Coq Require Import List NArith ZArith QArith Lia Bool ZifyBool ZifyNat ZifyN.
From Verif Require Import Base ListUtil ValueTypesModel ValueTypesSpec ValueTypesProofs ConvProofs DpfModel DpfSpec BitsProofs DpfWf DpfReach
  DpfCreate HwyProofs PropertiesDpf PropertiesDpfApi PirDbModel PirSpec PirDbProofs PirIpProofs PirModel PirProtoSpec PirProtoProofs.
Import ListNotations.
Ltac Zify.zify_post_hook ::= Z.div_mod_to_equations.
Open Scope N_scope.
Arguments N.pow : simpl never.
Arguments N.shiftl : simpl never.
Arguments Z.pow : simpl never.

(** ** Lists *)
Lemma pair_map : forall X K E (f : X -> res (K * K)) (g : K -> res E) (P : X -> E -> E -> Prop) l,
  (forall x, In x l -> exists k0 k1 e0 e1, f x = Ok (k0, k1) /\ g k0 = Ok e0 /\ g k1 = Ok e1 /\ P x e0 e1) ->
  exists keys E0 E1, mapM f l = Ok keys /\ mapM g (map fst keys) = Ok E0 /\ mapM g (map snd keys) = Ok E1 /\
    Forall3 P l E0 E1.
Proof.
  induction l as [|x l IH]; intros H.
  - exists [], [], []. repeat split. constructor.
  - destruct (H x (or_introl eq_refl)) as (k0 & k1 & e0 & e1 & H1 & H2 & H3 & H4).
    destruct IH as (keys & E0 & E1 & I1 & I2 & I3 & I4); [intros; apply H; right; assumption|].
    exists ((k0, k1) :: keys), (e0 :: E0), (e1 :: E1). cbn [mapM map fst snd].
    rewrite H1, I1. cbn [bind mapM map fst snd]. rewrite H2, H3, I2, I3. repeat split. constructor; assumption.
Qed.
Lemma Forall3_lengths : forall A B C (R : A -> B -> C -> Prop) la lb lc, Forall3 R la lb lc ->
  length la = length lc /\ length lb = length lc.
Proof. induction 1; cbn [length]; lia. Qed.
Lemma Forall3_nth : forall A B C (R : A -> B -> C -> Prop) la lb lc i c, Forall3 R la lb lc -> nth_error lc i = Some c ->
  exists a b, nth_error la i = Some a /\ nth_error lb i = Some b /\ R a b c.
Proof.
  intros A B C R la lb lc i c H. revert i. induction H; intros [|i] Hi; cbn [nth_error] in *; try discriminate; eauto.
  injection Hi as ->. eauto.
Qed.
Lemma Forall3_imp : forall A B C (R S : A -> B -> C -> Prop) la lb lc, (forall a b c, In a la -> R a b c -> S a b c) ->
  Forall3 R la lb lc -> Forall3 S la lb lc.
Proof.
  intros A B C R S la lb lc H HF. induction HF; constructor; auto with datatypes.
Qed.
Lemma bxor_maps : forall A (f g : A -> N) l, bxor (map f l) (map g l) = map (fun x => N.lxor (f x) (g x)) l.
Proof. induction l as [|x l IH]; cbn [map bxor]; [reflexivity|]. rewrite IH. reflexivity. Qed.

(** ** The dense DPF *)
Lemma log2_small : forall n k, (0 < n)%Z -> (0 <= k)%Z -> (n < 2 ^ k)%Z -> (Z.log2_up n <= k)%Z.
Proof. intros n k H0 Hk H. apply Z.log2_up_le_pow2; lia. Qed.

Lemma create_params : forall F ps d, create_incremental F ps = Ok d -> d_params d = map with_default_sec ps.
Proof.
  intros F ps d H. unfold create_incremental, validator_create in H. bind_inv H. bind_inv Hb.
  destruct a as [[? ?] ?]. bind_inv Hb. destruct a as [? ?]. inversion Hb; subst. bind_inv H. inversion H; subst. reflexivity.
Qed.
Lemma default_sec_ld : forall p, p_ld (with_default_sec p) = p_ld p.
Proof. intros p. unfold with_default_sec. destruct (_ : bool); reflexivity. Qed.

Section Dense.
Variables (aes : N -> N -> N) (F : fops) (clog : Z -> Z) (n : Z).
Hypothesis Hn : (0 < n)%Z.
Hypothesis Hn63 : (n < 9223372036854775808)%Z.
Hypothesis HL : clog_ok clog n.
Let ps := dense_params clog n.

Lemma clog_range : (0 <= clog n <= 63)%Z.
Proof using Hn Hn63 HL.
  unfold clog_ok in HL. pose proof (Z.log2_nonneg n). pose proof (log2_small n 63 Hn ltac:(lia) Hn63). lia.
Qed.
Lemma dense_create : exists d, create_incremental F ps = Ok d.
Proof using Hn Hn63 HL.
  pose proof clog_range as HR. apply create_accepts.
  - split.
    + discriminate.
    + repeat constructor; cbn [p_ld]; lia.
    + intros [|i] [|j] p q Hij Hp Hq; try lia; cbn in Hq; destruct j; discriminate.
    + repeat constructor. exists (PTXor 128). split; [reflexivity|]. constructor. exists 7%Z. split; [lia|reflexivity].
    + repeat constructor; cbn; discriminate.
  - repeat constructor. exists (TXor 128). split; [reflexivity|]. split; [apply (denotes_xor 128)|]. left. reflexivity.
Qed.

Variable d : dpf.
Hypothesis Hd : create_incremental F ps = Ok d.
Let d' := register_value_type block_type d.
Lemma dense_created : created F ps [block_type] d'.
Proof using Hd. exists d. split; [exact Hd|]. split; [repeat constructor|reflexivity]. Qed.
Lemma dense_has : level_has ps 0 block_type.
Proof using. split; [reflexivity|]. eexists. split; [reflexivity|]. apply (denotes_xor 128). Qed.

Definition nblocks : nat := N.to_nat (2 ^ Z.to_N (clog n)).

Lemma query_block : forall q, (0 <= q < n)%Z -> Z.to_N (q / 128) < 2 ^ Z.to_N (clog n).
Proof using Hn Hn63 HL.
  intros q Hq. unfold clog_ok in HL. pose proof (Z.log2_spec n Hn) as [_ H2].
  assert (H3 : (q / 128 < 2 ^ clog n)%Z).
  { assert (2 ^ Z.succ (Z.log2 n) <= 2 ^ (1 + clog n))%Z by (apply Z.pow_le_mono_r; lia).
    rewrite Z.pow_add_r in H by (pose proof clog_range; lia). change (2 ^ 1)%Z with 2%Z in H.
    pose proof (Z.pow_pos_nonneg 2 (clog n) ltac:(lia) ltac:(pose proof clog_range; lia)).
    apply Z.div_lt_upper_bound; lia. }
  pose proof clog_range.
  replace (2 ^ Z.to_N (clog n)) with (Z.to_N (2 ^ clog n)).
  - assert (0 <= q / 128)%Z by (apply Z.div_pos; lia). lia.
  - rewrite Z2N.inj_pow by lia. reflexivity.
Qed.
Lemma records_cover : (n <= Z.of_nat nblocks * 128)%Z.
Proof using Hn Hn63 HL.
  unfold nblocks. pose proof clog_range as HR. unfold clog_ok in HL. pose proof (Z.log2_spec n Hn) as [_ H2].
  assert (2 ^ Z.succ (Z.log2 n) <= 2 ^ (1 + clog n))%Z by (apply Z.pow_le_mono_r; lia).
  rewrite Z.pow_add_r in H by lia. change (2 ^ 1)%Z with 2%Z in H.
  replace (Z.of_nat (N.to_nat (2 ^ Z.to_N (clog n)))) with (2 ^ clog n)%Z.
  - pose proof (Z.pow_pos_nonneg 2 (clog n) ltac:(lia) ltac:(lia)). lia.
  - rewrite N_nat_Z, N2Z.inj_pow, Z2N.id by lia. reflexivity.
Qed.

Definition beta_of (q : Z) : N := 2 ^ Z.to_N (q mod 128).
Lemma beta_lt : forall q, beta_of q < 2 ^ 128.
Proof using. clear. intros q. apply N.pow_lt_mono_r; lia. Qed.

Lemma dense_keys_ok : forall q seeds, (0 <= q < n)%Z -> exists k0 k1, dense_keys aes d q seeds = Ok (k0, k1) /\
  generate_keys aes d' (Z.to_N (q / 128)) [to_value block_type (VNum (beta_of q))] (fst seeds) (snd seeds) = Ok (k0, k1).
Proof using Hn Hn63 HL Hd.
  intros q seeds Hq.
  assert (E : dense_keys aes d q seeds = generate_keys aes d' (Z.to_N (q / 128)) [to_value block_type (VNum (beta_of q))] (fst seeds) (snd seeds)).
  { unfold dense_keys. rewrite Z.quot_div_nonneg, Z.rem_mod_nonneg by lia. cbv zeta.
    rewrite N.shiftl_1_l. unfold w128. change P128 with (2 ^ 128). rewrite N.mod_small by apply beta_lt. reflexivity. }
  rewrite E.
  destruct (C07_keygen_accepts_partial aes F ps [block_type] d' (Z.to_N (q / 128)) [to_value block_type (VNum (beta_of q))] (fst seeds) (snd seeds))
    as (k0 & k1 & HK).
  - exact dense_created.
  - repeat constructor. exists block_type. split; [left; reflexivity|reflexivity].
  - repeat constructor. eapply DpfFacts.shape_roomy; [exact dense_created|reflexivity].
  - split.
    + repeat constructor. exists block_type, (VNum (beta_of q)). split; [reflexivity|]. split; [apply (denotes_xor 128)|].
      apply to_value_repr; [reflexivity|]. cbn [wt]. apply N.ltb_lt, beta_lt.
    + unfold last_ld, level_ld, ps, dense_params. cbn [length Nat.sub nth_error p_ld]. apply query_block. assumption.
  - exists k0, k1. auto.
Qed.

(** The expansions of the two keys of a query differ exactly in its bit. *)
Lemma dense_expand_ok : forall q seeds k0 k1, (0 <= q < n)%Z -> (clog n < 60)%Z ->
  generate_keys aes d' (Z.to_N (q / 128)) [to_value block_type (VNum (beta_of q))] (fst seeds) (snd seeds) = Ok (k0, k1) ->
  exists e0 e1, dense_expand aes d k0 = Ok e0 /\ dense_expand aes d k1 = Ok e1 /\
    length e0 = nblocks /\ length e1 = nblocks /\
    forall i, (i < nblocks)%nat -> N.lxor (nth i e0 0) (nth i e1 0) = if Z.eqb (Z.of_nat i) (q / 128) then beta_of q else 0.
Proof using Hn Hn63 HL Hd.
  intros q seeds k0 k1 Hq Hc HK.
  pose proof clog_range as HR.
  assert (Ha : Z.to_N (q / 128) < 2 ^ 128).
  { eapply N.lt_trans; [apply query_block; assumption|]. apply N.pow_lt_mono_r; lia. }
  destruct (C08_generated_keys aes F ps [block_type] d' _ _ _ _ k0 k1 dense_created Ha HK) as (_ & _ & (c0 & c1 & E0 & E1) & _).
  destruct (created_wf _ _ _ _ dense_created) as (W & _).
  pose proof (C02_histories aes F ps [block_type] d' _ _ _ _ k0 k1 c0 c1 [Next block_type []] dense_created Ha HK E0 E1) as HH.
  assert (HV : valid_history ps d' None (fun _ => True) [Next block_type []]).
  { constructor; cbn [call_level call_type call_prefixes length].
    - exact dense_has.
    - reflexivity.
    - unfold gap, level_ld, ps, dense_params. cbn [nth_error p_ld]. lia.
    - rewrite N.mul_0_l. reflexivity.
    - assert (Hw : (nth 0 (d_h2t d') 0 < 60)%nat).
      { assert (HP : nlevels d' = 1%nat).
        { unfold nlevels. change (d_params d') with (d_params d). rewrite (create_params _ _ _ Hd). reflexivity. }
        pose proof (wf_h2t_ld d' W 0 ltac:(lia)) as H1.
        destruct (nth_error (d_params d') 0) as [p|] eqn:Ep.
        2:{ apply nth_error_None in Ep. unfold nlevels in HP. lia. }
        pose proof (wf_ld_z d' W 0 p Ep) as [_ H2]. unfold h2t in H1.
        assert (p_ld p = clog n).
        { change (d_params d') with (d_params d) in Ep. rewrite (create_params _ _ _ Hd) in Ep. injection Ep as <-. apply default_sec_ld. }
        lia. }
      split; [left; reflexivity|]. cbn [length Nat.max]. rewrite Nat.sub_0_r.
      change (N.of_nat 1) with 1. rewrite N.mul_1_l. apply N.pow_lt_mono_r; lia.
    - constructor. }
  specialize (HH HV). cbn [run_calls history_reconstructs] in HH.
  change (run_call aes d' c0 (Next block_type [])) with (evaluate_next aes d block_type [] c0) in HH.
  change (run_call aes d' c1 (Next block_type [])) with (evaluate_next aes d block_type [] c1) in HH.
  change (create_evaluation_context d' k0) with (create_evaluation_context d k0) in E0.
  change (create_evaluation_context d' k1) with (create_evaluation_context d k1) in E1.
  destruct (evaluate_next aes d block_type [] c0) as [r0 c0'] eqn:EN0.
  destruct (evaluate_next aes d block_type [] c1) as [r1 c1'] eqn:EN1.
  destruct HH as [(l0 & l1 & b & v & -> & -> & Hb & Hv & Hrec) _].
  cbn [call_level call_type call_prefixes] in *. cbn [nth_error] in Hb. injection Hb as <-.
  assert (v = VNum (beta_of q)) as ->.
  { assert (HX : repr block_type (to_value block_type (VNum (beta_of q))) (VNum (beta_of q))).
    { apply to_value_repr; [reflexivity|]. cbn [wt]. apply N.ltb_lt, beta_lt. }
    apply from_value_complete in Hv; [|reflexivity]. apply from_value_complete in HX; [|reflexivity]. assert (Ok v = Ok (VNum (beta_of q))) as HQ by (rewrite <- Hv, <- HX; reflexivity). injection HQ as ->. reflexivity. }
  exists (map num_of l0), (map num_of l1).
  unfold dense_expand. rewrite E0, E1. cbn [bind]. rewrite EN0, EN1. cbn [fst bind].
  split; [reflexivity|]. split; [reflexivity|].
  unfold reconstruct, outputs, extensions in Hrec.
  assert (HP : alpha_prefix ps (Z.to_N (q / 128)) 0 = Z.to_N (q / 128)).
  { unfold alpha_prefix, last_ld, ps, dense_params. cbn [length Nat.sub]. rewrite N.sub_diag. apply N.div_1_r. }
  rewrite HP in Hrec.
  assert (HLd : level_ld ps 0 = Z.to_N (clog n)) by reflexivity. rewrite HLd in Hrec. fold nblocks in Hrec.
  pose proof (Forall3_lengths _ _ _ _ _ _ _ Hrec) as [Hl0 Hl1]. rewrite !map_length, seq_length in Hl0, Hl1.
  rewrite !map_length. split; [exact Hl0|]. split; [exact Hl1|].
  intros i Hi.
  destruct (Forall3_nth _ _ _ _ _ _ _ i (point_function block_type (Z.to_N (q / 128)) (VNum (beta_of q)) (0 * 2 ^ Z.to_N (clog n) + N.of_nat i)) Hrec)
    as (a & b & H0 & H1 & HS).
  { rewrite !nth_error_map, nth_error_seq by assumption. reflexivity. }
  rewrite (nth_error_nth (map num_of l0) i 0 (x := num_of a)) by (rewrite nth_error_map, H0; reflexivity).
  rewrite (nth_error_nth (map num_of l1) i 0 (x := num_of b)) by (rewrite nth_error_map, H1; reflexivity).
  assert (HZ : point_function block_type (Z.to_N (q / 128)) (VNum (beta_of q)) (0 * 2 ^ Z.to_N (clog n) + N.of_nat i) = VNum (N.lxor (num_of a) (num_of b))).
  { revert HS. generalize (point_function block_type (Z.to_N (q / 128)) (VNum (beta_of q)) (0 * 2 ^ Z.to_N (clog n) + N.of_nat i)).
    clear. unfold block_type. intros z HS. inversion HS; subst. reflexivity. }
  unfold point_function in HZ. rewrite N.mul_0_l, N.add_0_l in HZ.
  assert (HEq : (N.of_nat i =? Z.to_N (q / 128)) = (Z.of_nat i =? q / 128)%Z).
  { assert (0 <= q / 128)%Z by (apply Z.div_pos; lia). clear - H. destruct (N.eqb_spec (N.of_nat i) (Z.to_N (q / 128))), (Z.eqb_spec (Z.of_nat i) (q / 128)); lia. }
  rewrite HEq in HZ. destruct (Z.of_nat i =? q / 128)%Z; [congruence|]. cbn in HZ. congruence.
Qed.
End Dense.

(** ** The two inner products *)
Lemma ip_general : forall t values selections nb max, target_ok t -> selections <> [] ->
  Forall (fun s => length s = nb) selections -> (Z.of_nat nb < 2147483648)%Z ->
  (length values <= nb * 128)%nat -> (Z.of_nat (length values) < 2147483648)%Z -> (0 < max)%Z ->
  Forall (fun v => (Z.of_nat (length (v_data v)) <= max)%Z /\ is_bytes (v_data v) /\
    N.of_nat (length (v_data v)) < 2 ^ 31) values ->
  vector_target t \/ (Z.of_nat nb <= 16777216)%Z ->
  inner_product t values selections max
  = Ok (map (fun s => map (fun p => xor_all (map (hwy_contrib (map v_data values) s p) (seq 0 nb)))
                          (seq 0 (Z.to_nat max))) selections).
Proof.
  intros t values selections nb max HT Hne Hnb Hnb31 Hcov Hlen Hmax Hvals [HV|HV].
  - apply ip_hwy_general; assumption.
  - rewrite (ip_ok t values selections nb max) by auto. f_equal. apply map_ext. intros s. unfold selected_xor.
    apply map_ext. intros p. rewrite map_length, <- (map_length v_data), <- (contrib_spec _ s p nb) by (rewrite map_length; assumption).
    f_equal. apply map_ext_in. intros i Hi. apply in_seq in Hi. symmetry. apply hwy_contrib_ok; [rewrite map_length; assumption|]. lia.
Qed.

Lemma bit_of_lxor : forall i j e0 e1, xorb (bit_of i j e0) (bit_of i j e1) = N.testbit (N.lxor (nth i e0 0) (nth i e1 0)) (N.of_nat j).
Proof. intros. unfold bit_of. rewrite N.lxor_spec. reflexivity. Qed.
Lemma contrib_lxor : forall recs p e0 e1 i base, N.lxor (contrib recs e0 p i base) (contrib recs e1 p i base)
  = xor_all (map (fun j => if N.testbit (N.lxor (nth i e0 0) (nth i e1 0)) (N.of_nat j) then nth p (nth (base + j) recs []) 0 else 0) (seq 0 128)).
Proof.
  intros. unfold contrib. rewrite <- xor_all_lxor. f_equal. apply map_ext. intros j. rewrite <- bit_of_lxor.
  destruct (bit_of i j e0), (bit_of i j e1); cbn [xorb]; rewrite ?N.lxor_nilpotent, ?N.lxor_0_l, ?N.lxor_0_r; reflexivity.
Qed.

Lemma query_byte : forall recs p e0 e1 q nb, (0 <= q < 2147483648)%Z -> (q / 128 < Z.of_nat nb)%Z ->
  (forall i, (i < nb)%nat -> N.lxor (nth i e0 0) (nth i e1 0) = if (Z.of_nat i =? q / 128)%Z then beta_of q else 0) ->
  N.lxor (xor_all (map (hwy_contrib recs e0 p) (seq 0 nb))) (xor_all (map (hwy_contrib recs e1 p) (seq 0 nb)))
  = nth p (nth (Z.to_nat q) recs []) 0.
Proof.
  intros recs p e0 e1 q nb Hq Hb He. rewrite <- xor_all_lxor.
  rewrite (xor_all_single _ _ (seq 0 nb) (Z.to_nat (q / 128))).
  - unfold hwy_contrib. cbv zeta.
    assert (H0 : (0 <= q / 128)%Z) by (apply Z.div_pos; lia).
    replace (Z.of_nat (Z.to_nat (q / 128)) * 128)%Z with (q / 128 * 128)%Z by lia.
    assert (H1 : (q / 128 * 128 <= q)%Z) by lia.
    rewrite to_int32_small by lia. destruct (Z.ltb_spec (q / 128 * 128) 0); [lia|].
    rewrite contrib_lxor, He by lia. replace (Z.of_nat (Z.to_nat (q / 128)))%Z with (q / 128)%Z by lia. rewrite Z.eqb_refl.
    rewrite (xor_all_single _ _ (seq 0 128) (Z.to_nat (q mod 128))).
    + unfold beta_of. rewrite N.pow2_bits_eqb. destruct (N.eqb_spec (Z.to_N (q mod 128)) (N.of_nat (Z.to_nat (q mod 128)))) as [|Hc].
      * f_equal. f_equal. pose proof (Z.div_mod q 128 ltac:(discriminate)). pose proof (Z.mod_pos_bound q 128 ltac:(reflexivity)). lia.
      * exfalso. apply Hc. pose proof (Z.mod_pos_bound q 128 ltac:(reflexivity)). lia.
    + apply seq_NoDup.
    + apply in_seq. pose proof (Z.mod_pos_bound q 128 ltac:(reflexivity)). lia.
    + intros j _ Hj. unfold beta_of. rewrite N.pow2_bits_eqb. destruct (N.eqb_spec (Z.to_N (q mod 128)) (N.of_nat j)); [|reflexivity].
      exfalso. apply Hj. pose proof (Z.mod_pos_bound q 128 ltac:(reflexivity)). lia.
  - apply seq_NoDup.
  - apply in_seq. assert (H0 : (0 <= q / 128)%Z) by (apply Z.div_pos; lia). lia.
  - intros i Hi Hne. apply in_seq in Hi. unfold hwy_contrib. cbv zeta. destruct (_ <? 0)%Z; [reflexivity|].
    rewrite contrib_lxor, He by lia. assert (H0 : (0 <= q / 128)%Z) by (apply Z.div_pos; lia).
    destruct (Z.eqb_spec (Z.of_nat i) (q / 128)); [lia|]. apply xor_all_zero. intros j _. rewrite N.bits_0. reflexivity.
Qed.

Lemma zero_padded_nth : forall r size, (length r <= size)%nat -> map (fun p => nth p r 0) (seq 0 size) = zero_padded size r.
Proof.
  intros r size H. unfold zero_padded. apply (nth_ext _ _ 0 0).
  - rewrite map_length, seq_length, app_length, repeat_length. lia.
  - intros p Hp. rewrite map_length, seq_length in Hp.
    rewrite (nth_error_nth _ p 0 (x := nth p r 0)) by (rewrite nth_error_map, nth_error_seq by assumption; reflexivity).
    destruct (Nat.lt_ge_cases p (length r)).
    + rewrite app_nth1 by assumption. reflexivity.
    + rewrite app_nth2 by assumption. rewrite nth_overflow by assumption. symmetry. apply nth_zeros.
Qed.
Lemma longest_bound : forall vs v, In v vs -> (length v <= longest vs)%nat.
Proof.
  induction vs as [|w vs IH]; intros v Hv; [destruct Hv|]. change (longest (w :: vs)) with (Nat.max (length w) (longest vs)).
  destruct Hv as [->|Hv]; [lia|]. specialize (IH v Hv). lia.
Qed.

(** What the code needs of the records: lengths that fit the int arithmetic of InnerProduct and
    one non-empty record. *)
Definition records_ok (records : list bytes) : Prop :=
  Forall (fun r => is_bytes r /\ (Z.of_nat (length r) < 2147483648)%Z) records /\ Exists (fun r => r <> []) records.

Lemma ip_with : forall t d records selections nb, target_ok t -> holds d records -> records_ok records ->
  selections <> [] -> Forall (fun s => length s = nb) selections -> (Z.of_nat nb < 2147483648)%Z ->
  (length records <= nb * 128)%nat -> (Z.of_nat (length records) < 2147483648)%Z ->
  vector_target t \/ (Z.of_nat nb <= 16777216)%Z ->
  inner_product_with t d selections
  = Ok (map (fun s => map (fun p => xor_all (map (hwy_contrib records s p) (seq 0 nb))) (seq 0 (longest records))) selections).
Proof.
  intros t d records selections nb HT ((views & EC & EV) & _ & HM) [HR HE] Hne Hnb H31 Hcov Hlen HV.
  unfold inner_product_with. rewrite EC. cbn [bind].
  assert (Hmax : (0 < longest records)%nat).
  { apply Exists_exists in HE. destruct HE as (r & Hr & Hne'). apply longest_bound in Hr. destruct r; [congruence|]. cbn [length] in Hr. lia. }
  assert (Hmx : (Z.of_nat (longest records) < 2147483648)%Z).
  { clear - HR. induction HR as [|r l [_ H] _ IH]; [reflexivity|]. change (longest (r :: l)) with (Nat.max (length r) (longest l)). lia. }
  rewrite HM. replace (to_int64 (Z.of_N (N.of_nat (longest records)))) with (Z.of_nat (longest records)) by (unfold to_int64; lia).
  rewrite (ip_general t views selections nb (Z.of_nat (longest records))); auto.
  - rewrite EV, Nat2Z.id. reflexivity.
  - rewrite <- EV, map_length in Hcov. assumption.
  - rewrite <- EV, map_length in Hlen. assumption.
  - lia.
  - apply Forall_forall. intros v Hv. assert (Hin : In (v_data v) records) by (rewrite <- EV; apply in_map; assumption).
    pose proof (proj1 (Forall_forall _ _) HR _ Hin) as [H1 H2]. pose proof (longest_bound _ _ Hin).
    change (2 ^ 31) with 2147483648. split; [lia|]. split; [assumption|lia].
Qed.

(** Limits on the number of elements: 2^30 (the number of blocks of the expanded DPF is an
    int, and the dense DPF has one block per element), 2^24 for the scalar inner product. *)
Definition dense_fits (clog : Z -> Z) (n : Z) (t : target) : Prop :=
  (clog n < 31)%Z /\ (vector_target t \/ (clog n <= 24)%Z).

Lemma nblocks_Z : forall clog n, (0 <= clog n)%Z -> Z.of_nat (nblocks clog n) = (2 ^ clog n)%Z.
Proof. intros clog n H. unfold nblocks. rewrite N_nat_Z, N2Z.inj_pow, Z2N.id by lia. reflexivity. Qed.

Section EndToEnd.
Variables (aes : N -> N -> N) (F : fops) (clog : Z -> Z) (records : list bytes).
Let n := Z.of_nat (length records).
Hypothesis HR : records_ok records.
Hypothesis Hlen : (n < 2147483648)%Z.
Hypothesis HL : clog_ok clog n.
Variable d : dpf.
Hypothesis Hd : create_incremental F (dense_params clog n) = Ok d.

Lemma records_pos : (0 < n)%Z.
Proof using HR.
  unfold n. assert (records <> []) by (destruct HR as [_ HE]; intros E; rewrite E in HE; inversion HE).
  assert (length records <> 0%nat) by (intros E; apply length_zero_iff_nil in E; contradiction). clear - H0. lia.
Qed.

(** What the client reconstructs for query [q] from the expansions [e0] and [e1]. *)
Definition differ (q : Z) (e0 e1 : list N) : Prop :=
  length e0 = nblocks clog n /\ length e1 = nblocks clog n /\
  forall i, (i < nblocks clog n)%nat -> N.lxor (nth i e0 0) (nth i e1 0) = if Z.eqb (Z.of_nat i) (q / 128) then beta_of q else 0.

Lemma queries_expand : forall queries (seeds : nat -> N * N), (clog n < 60)%Z -> Forall (fun q => 0 <= q < n)%Z queries ->
  exists keys E0 E1,
    mapM (fun iq : nat * Z => dense_keys aes d (snd iq) (seeds (fst iq))) (combine (seq 0 (length queries)) queries) = Ok keys /\
    length keys = length queries /\
    mapM (dense_expand aes d) (map fst keys) = Ok E0 /\ mapM (dense_expand aes d) (map snd keys) = Ok E1 /\
    Forall3 differ queries E0 E1.
Proof using HR Hlen HL Hd.
  intros queries seeds Hc HQ. pose proof records_pos as Hpos.
  destruct (pair_map (nat * Z) dkey (list N) (fun iq => dense_keys aes d (snd iq) (seeds (fst iq))) (dense_expand aes d)
              (fun iq => differ (snd iq)) (combine (seq 0 (length queries)) queries)) as (keys & E0 & E1 & H1 & H2 & H3 & H4).
  - intros [i q] Hin. apply in_combine_r in Hin. cbn [fst snd].
    pose proof (proj1 (Forall_forall _ _) HQ q Hin) as Hq. cbv beta in Hq.
    assert (Hn63 : (n < 9223372036854775808)%Z) by lia.
    destruct (dense_keys_ok aes F clog n Hpos Hn63 HL d Hd q (seeds i) Hq) as (k0 & k1 & K1 & K2).
    destruct (dense_expand_ok aes F clog n Hpos Hn63 HL d Hd q (seeds i) k0 k1 Hq Hc K2) as (e0 & e1 & X1 & X2 & X3 & X4 & X5).
    exists k0, k1, e0, e1. repeat split; assumption.
  - exists keys, E0, E1. split; [assumption|]. split.
    + apply mapM_length in H1. rewrite H1, combine_length, seq_length. lia.
    + split; [assumption|]. split; [assumption|].
      assert (HX : forall (l : list (nat * Z)) A B, Forall3 (fun iq => differ (snd iq)) l A B -> Forall3 differ (map snd l) A B).
      { clear. induction 1; cbn [map]; constructor; auto. }
      apply HX in H4. assert (HC : map snd (combine (seq 0 (length queries)) queries) = queries).
      { clear. generalize 0%nat. induction queries as [|q l IH]; intros k; cbn [length seq combine map snd]; [reflexivity|]. rewrite IH. reflexivity. }
      rewrite HC in H4. exact H4.
Qed.

Lemma both_products : forall t0 t1 db0 db1 queries E0 E1,
  target_ok t0 -> target_ok t1 -> dense_fits clog n t0 -> dense_fits clog n t1 -> holds db0 records -> holds db1 records ->
  queries <> [] -> Forall (fun q => 0 <= q < n)%Z queries -> Forall3 differ queries E0 E1 ->
  exists r0 r1, inner_product_with t0 db0 E0 = Ok r0 /\ inner_product_with t1 db1 E1 = Ok r1 /\ same_shape r0 r1 /\
    length r0 = length queries /\
    xor_lists r0 r1 = map (fun q => zero_padded (longest records) (nth (Z.to_nat q) records [])) queries.
Proof using HR Hlen HL.
  intros t0 t1 db0 db1 queries E0 E1 T0 T1 [C0 V0] [_ V1] D0 D1 Hne HQ HF.
  pose proof records_pos as Hpos. assert (Hn63 : (n < 9223372036854775808)%Z) by lia.
  pose proof (clog_range clog n Hpos Hn63 HL) as HCr. pose proof (records_cover clog n Hpos Hn63 HL) as Hcov.
  pose proof (nblocks_Z clog n (proj1 HCr)) as HnbZ.
  assert (Hnb31 : (Z.of_nat (nblocks clog n) < 2147483648)%Z).
  { rewrite HnbZ. change 2147483648%Z with (2 ^ 31)%Z. apply Z.pow_lt_mono_r; lia. }
  assert (Hsc : forall t, vector_target t \/ (clog n <= 24)%Z -> vector_target t \/ (Z.of_nat (nblocks clog n) <= 16777216)%Z).
  { intros t [H|H]; [left; assumption|right]. rewrite HnbZ. change 16777216%Z with (2 ^ 24)%Z. apply Z.pow_le_mono_r; lia. }
  assert (L0 : Forall (fun s => length s = nblocks clog n) E0) by (clear - HF; induction HF as [|? ? ? ? ? ? [H _]]; constructor; auto).
  assert (L1 : Forall (fun s => length s = nblocks clog n) E1) by (clear - HF; induction HF as [|? ? ? ? ? ? [_ [H _]]]; constructor; auto).
  pose proof (Forall3_lengths _ _ _ _ _ _ _ HF) as [Lq L01].
  assert (Ne1 : E1 <> []) by (destruct E1, queries; [congruence|discriminate|discriminate|discriminate]).
  assert (Ne0 : E0 <> []) by (destruct E0, E1; [congruence|discriminate|discriminate|discriminate]).
  rewrite (ip_with t0 db0 records E0 (nblocks clog n)) by (auto; lia).
  rewrite (ip_with t1 db1 records E1 (nblocks clog n)) by (auto; lia).
  eexists _, _. split; [reflexivity|]. split; [reflexivity|]. split; [|split].
  - unfold same_shape. rewrite !map_map. clear - L01. revert E1 L01. induction E0 as [|e E0 IH]; intros [|f E1] H; cbn [length map] in *; try discriminate; [reflexivity|].
    f_equal; [rewrite !map_length; reflexivity|]. apply IH. lia.
  - rewrite map_length. lia.
  - clear Ne0 Ne1 Hne L0 L1 Lq L01. induction HF as [|q e0 e1 qs E0 E1 (X1 & X2 & X3) HF IH]; [reflexivity|].
    inversion HQ; subst. cbn [map]. rewrite xor_lists_cons, IH by assumption. f_equal.
    rewrite bxor_maps. rewrite <- zero_padded_nth.
    + apply map_ext. intros p. apply query_byte; [lia| |exact X3].
      pose proof (query_block clog n Hpos Hn63 HL q ltac:(assumption)) as HB.
      assert (0 <= q / 128)%Z by (apply Z.div_pos; lia). unfold nblocks. lia.
    + apply longest_bound, nth_In. unfold n in *. lia.
Qed.
End EndToEnd.
