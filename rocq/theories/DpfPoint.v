(** The shares of generated keys sum to the point function. *)
From Coq Require Import List NArith ZArith Lia Bool ZifyBool ZifyNat ZifyN.
From Verif Require Import Base ListUtil ValueTypesModel ValueTypesSpec ValueTypesProofs
  ConvProofs BitsProofs TypeProofs DpfModel DpfTree DpfWf DpfGen DpfEval.
Import ListNotations.
Ltac Zify.zify_post_hook ::= Z.div_mod_to_equations.
Open Scope N_scope.

Section Point.
Variable aes : N -> N -> N.
Variable d : dpf.
Hypothesis W : wf d.

Lemma compute_value_correction_type : forall h sa sb alpha beta inv vs,
  compute_value_correction aes d h sa sb alpha beta inv = Ok vs -> exists T, level_type d h T.
Proof.
  intros h sa sb alpha beta inv vs H. unfold compute_value_correction in H.
  bind_inv H. apply at_or_ub_ok in Hb. bind_inv H. exists a0.
  unfold get_value_correction_function in Hb0. destruct (find _ (d_types d)) as [t|] eqn:E; inv Hb0.
  apply find_some in E. destruct E as [E1 E2]. apply ptype_eqb_eq in E2.
  pose proof (wf_types _ W) as HT. rewrite Forall_forall in HT. specialize (HT _ E1).
  split; auto. exists a. split; auto. rewrite <- E2. apply to_value_type_denotes. auto.
Qed.

Lemma level_type_fun : forall h T T', level_type d h T -> level_type d h T' -> T = T'.
Proof.
  intros h T T' (_ & p & Hp & HD) (_ & p' & Hp' & HD'). assert (p = p') by congruence. subst p'.
  eapply denotes_fun; eauto.
Qed.

Lemma level_type_lt : forall h T, level_type d h T -> (h < nlevels d)%nat.
Proof. intros h T (_ & p & Hp & _). apply nth_error_Some. congruence. Qed.

Lemma values_to_array_pos : forall T vs corrs, cty_ok T = true ->
  values_to_array T vs = Ok corrs -> length vs <> 0%nat.
Proof.
  intros T vs corrs Hok H. unfold values_to_array in H.
  destruct (Nat.eqb_spec (length vs) (elements_per_block T)) as [E|]; cbn in H; [|discriminate].
  pose proof (epb_pos T Hok). lia.
Qed.

(** Splitting a domain element into tree and block index. *)
Lemma domain_split : forall x y h,
  x = y <-> domain_to_tree_index d x h = domain_to_tree_index d y h /\
            domain_to_block_index d x h = domain_to_block_index d y h.
Proof.
  clear - d.
  intros x y h. split; [intros ->; auto|]. unfold domain_to_tree_index, domain_to_block_index.
  intros [H1 H2]. apply N2Nat.inj in H2. rewrite !N.land_ones in H2. rewrite !N.shiftr_div_pow2 in H1.
  assert (2 ^ N.of_nat (block_bits d h) <> 0) by (apply N.pow_nonzero; lia).
  rewrite (N.div_mod x (2 ^ N.of_nat (block_bits d h))), (N.div_mod y (2 ^ N.of_nat (block_bits d h))) by auto.
  congruence.
Qed.

Lemma tree_index_alpha : forall alpha h, (h < nlevels d)%nat ->
  domain_to_tree_index d (N.shiftr alpha (N.of_nat (ld_last d - ld d h))) h
  = N.shiftr alpha (N.of_nat (ld_last d - h2t d h)).
Proof.
  intros alpha h Hh. unfold domain_to_tree_index, block_bits. rewrite N.shiftr_shiftr. f_equal.
  pose proof (wf_h2t_ld _ W h Hh). pose proof (ld_le_last d W h Hh). lia.
Qed.

Section Keys.
Variables (alpha : N) (beta : list pvalue) (seed0 seed1 : N) (k0 k1 : dkey).
Hypothesis Ha : alpha < P128.
Hypothesis HG : generate_keys aes d alpha beta seed0 seed1 = Ok (k0, k1).

Lemma gen_keys_ok : key_ok d k0 /\ key_ok d k1.
Proof.
  destruct (generate_keys_level aes d W _ _ _ _ _ _ Ha HG)
    as (Hs0 & Hs1 & Hp0 & Hp1 & Hcw & Hla & HL & Hbl & Hvb & Hal & Hlev).
  assert (HV : forall h, (h < nlevels d)%nat -> length (key_values d k0 h) <> 0%nat).
  { intros h Hh. destruct (Hlev h Hh) as (g & b & _ & _ & HC & _).
    pose proof (compute_value_correction_type _ _ _ _ _ _ _ HC) as (T & HT).
    destruct (compute_value_correction_inv aes d W _ _ _ _ _ _ _ T Hh HT HC)
      as (bT & ea & eb & corrs & _ & _ & _ & _ & _ & _ & _ & _ & _ & HVA & _).
    eapply values_to_array_pos; eauto. apply HT. }
  assert (HK : forall k, k_seed k <> None -> k_cws k = k_cws k0 -> k_last k = k_last k0 -> key_ok d k).
  { intros k Hs Hc Hl. unfold key_ok, validate_dpf_key.
    destruct (k_seed k); [|congruence]. cbn [check bind]. rewrite Hc, Hl.
    pose proof (wf_pos _ W) as Hpos.
    assert (HVl : length (k_last k0) <> 0%nat).
    { specialize (HV (nlevels d - 1)%nat ltac:(lia)). unfold key_values in HV.
      rewrite Nat.ltb_irrefl in HV. auto. }
    destruct (Nat.eqb_spec (length (k_last k0)) 0) as [E|_]; [congruence|]. cbn [negb check bind].
    pose proof (wf_levels _ W).
    replace (Z.of_nat (length (k_cws k0)) =? Z.of_nat (d_levels d) - 1)%Z with true by lia. cbn [check bind].
    apply iterM_ok. apply Forall_forall. intros t Ht. apply (In_nth _ _ 0%nat) in Ht.
    destruct Ht as (h & Hh & Hth). rewrite (wf_len _ W) in Hh. fold (h2t d h) in Hth. subst t.
    destruct (Z.eqb_spec (Z.of_nat (h2t d h)) (Z.of_nat (d_levels d) - 1)) as [E|E]; auto.
    assert (Hlt : (h < nlevels d - 1)%nat).
    { destruct (Nat.eq_dec h (nlevels d - 1)) as [->|]; lia. }
    specialize (HV h Hh). unfold key_values in HV.
    destruct (Nat.ltb_spec h (nlevels d - 1)) as [_|]; [|lia].
    unfold at_or_ub. destruct (nth_error (k_cws k0) (h2t d h)) as [cw|]; [|cbn in HV; congruence].
    cbn [bind]. destruct (Nat.eqb_spec (length (cw_values cw)) 0); [congruence|]. reflexivity. }
  split; apply HK; congruence.
Qed.

Lemma repr_from_value : forall T b bT, cty_ok T = true -> from_value T b = Ok bT ->
  validate_value (to_value_type T) b = Ok tt -> repr T b bT.
Proof.
  intros T b bT Hok Hf Hv. apply validate_value_sound in Hv; auto. destruct Hv as [Hv|(v & Hv & Hr)]; [congruence|].
  assert (v = bT) by congruence. subst. auto.
Qed.

Lemma validate_betas_nth : forall ps bs h p b, validate_betas ps bs = Ok tt ->
  nth_error ps h = Some p -> nth_error bs h = Some b -> validate_value (p_type p) b = Ok tt.
Proof.
  induction ps as [|p0 ps IH]; intros [|b0 bs] [|h] p b H Hp Hb; try discriminate; cbn in *.
  - inv Hp. inv Hb. bind_inv H. destruct a. auto.
  - bind_inv H. eauto.
Qed.

Theorem share_sum : forall h T, level_type d h T ->
  exists b v corrs, nth_error beta h = Some b /\ repr T b v /\ wt T v = true /\
    enough_bytes T (16 * blocks d h) /\
    values_to_array T (key_values d k0 h) = Ok corrs /\
    values_to_array T (key_values d k1 h) = Ok corrs /\
    forall x, x < 2 ^ N.of_nat (ld d h) ->
      wt T (share aes d T k0 h corrs x) = true /\ wt T (share aes d T k1 h corrs x) = true /\
      vadd T (share aes d T k0 h corrs x) (share aes d T k1 h corrs x)
      = if x =? N.shiftr alpha (N.of_nat (ld_last d - ld d h)) then v else vzero T.
Proof.
  intros h T HT. pose proof (level_type_lt h T HT) as Hh.
  destruct (generate_keys_level aes d W _ _ _ _ _ _ Ha HG)
    as (Hs0 & Hs1 & Hp0 & Hp1 & Hcw & Hla & HL & Hbl & Hvb & Hal & Hlev).
  destruct (Hlev h Hh) as (g & b & Hb & Hbit & HC & Hpath).
  destruct (compute_value_correction_inv aes d W _ _ _ _ _ _ _ T Hh HT HC)
      as (bT & ea & eb & corrs & HfB & HwB & Hen & Hea & Heb & HLa & HLb & HFa & HFb & HVA & HLc & HFc & Hidx & HE).
  exists b, bT, corrs. split; auto.
  destruct HT as (Hok & p & Hp & HD).
  split.
  { apply repr_from_value; auto. rewrite <- (validate_value_denotes T (p_type p)) by auto.
    eapply validate_betas_nth; eauto. }
  split; auto. split; auto. split; auto. split.
  { rewrite <- HVA. unfold key_values. rewrite Hcw, Hla. reflexivity. }
  assert (HT : level_type d h T) by (split; eauto).
  intros x Hx.
  set (ti := domain_to_tree_index d x h). set (bi := domain_to_block_index d x h).
  assert (Hti : ti < 2 ^ N.of_nat (h2t d h)) by (apply tree_index_lt; auto).
  assert (Hbi : (bi < elements_per_block T)%nat) by (apply block_index_epb; auto).
  specialize (Hpath ti Hti). cbv zeta in Hpath.
  assert (Hn0 : node_at aes k0 (h2t d h) ti = walk aes (map corr_of (firstn (h2t d h) (k_cws k0))) ti (seed0, false)).
  { unfold node_at, root, key_seed, key_bit. rewrite Hs0, Hp0. reflexivity. }
  assert (Hn1 : node_at aes k1 (h2t d h) ti = walk aes (map corr_of (firstn (h2t d h) (k_cws k0))) ti (seed1, true)).
  { unfold node_at, root, key_seed, key_bit. rewrite Hs1, Hp1, <- Hcw. reflexivity. }
  unfold share. fold ti bi. unfold bshare. rewrite Hp0, Hp1.
  assert (Hcj : exists c, nth_error corrs bi = Some c /\ wt T c = true).
  { destruct (nth_error corrs bi) as [c|] eqn:E.
    - exists c. split; auto. rewrite Forall_forall in HFc. apply HFc. eapply nth_error_In; eauto.
    - apply nth_error_None in E. lia. }
  destruct Hcj as (c & Hc & Hwc). rewrite (nth_error_nth _ _ (vzero T) Hc).
  assert (Hnth : forall l, length l = elements_per_block T -> Forall (fun v => wt T v = true) l ->
     exists e, nth_error l bi = Some e /\ nth bi l (vzero T) = e /\ wt T e = true).
  { intros l Hl HF. destruct (nth_error l bi) as [e|] eqn:E.
    - exists e. split; auto. split; [apply nth_error_nth; auto|].
      rewrite Forall_forall in HF. apply HF. eapply nth_error_In; eauto.
    - apply nth_error_None in E. lia. }
  assert (Hsw : forall party bit e, wt T e = true -> wt T (share_of T party bit e c) = true).
  { intros party bit e He. unfold share_of. destruct (party =? 1)%Z; destruct bit;
      auto using vneg_wt, vadd_wt. }
  destruct (N.eqb_spec ti (N.shiftr alpha (N.of_nat (ld_last d - h2t d h)))) as [E|E].
  - destruct Hpath as [HP0 HP1]. rewrite Hn0, Hn1, HP0, HP1. cbn [g_node0 g_node1 fst snd].
    unfold node_elems. cbn [fst g_node0 g_node1]. rewrite Hea, Heb.
    destruct (Hnth ea HLa HFa) as (a & Ha1 & -> & Ha2).
    destruct (Hnth eb HLb HFb) as (b' & Hb1 & -> & Hb2).
    split; [apply Hsw; auto|]. split; [apply Hsw; auto|].
    specialize (HE bi a b' Ha1 Hb1). rewrite Hc in HE. inv HE.
    assert (Hneg : g_bit0 g = negb (g_bit1 g)) by (apply neq_negb; auto). rewrite Hneg.
    rewrite share_sum_on; auto.
    + assert (HX : (x =? N.shiftr alpha (N.of_nat (ld_last d - ld d h))) =
         Nat.eqb bi (domain_to_block_index d (N.shiftr alpha (N.of_nat (ld_last d - ld d h))) h)).
      { apply eq_true_iff_eq. rewrite N.eqb_eq, Nat.eqb_eq. rewrite (domain_split x _ h).
        rewrite tree_index_alpha by auto. fold ti bi. tauto. }
      rewrite HX. reflexivity.
    + destruct (Nat.eqb bi _); auto. apply vzero_wt; auto.
  - rewrite Hn0, Hn1, <- Hpath. set (n := walk _ _ _ _).
    destruct (node_elems_ok aes d h T HT Hen n) as (_ & HLn & HFn).
    destruct (Hnth _ HLn HFn) as (e & _ & -> & He).
    split; [apply Hsw; auto|]. split; [apply Hsw; auto|].
    rewrite share_sum_off by auto.
    destruct (N.eqb_spec x (N.shiftr alpha (N.of_nat (ld_last d - ld d h)))) as [E2|]; auto.
    exfalso. apply E. unfold ti. rewrite E2. apply tree_index_alpha. auto.
Qed.

End Keys.
End Point.
