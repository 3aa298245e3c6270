(** Invariants of DPF objects returned by Create. *)
From Coq Require Import List NArith ZArith QArith Lia Bool ZifyBool ZifyNat ZifyN.
From Verif Require Import Base ListUtil ValueTypesModel ValueTypesSpec ValueTypesProofs
  ConvProofs BitsProofs TypeProofs DpfModel.
Import ListNotations.
Ltac Zify.zify_post_hook ::= Z.div_mod_to_equations.
Open Scope N_scope.

(** [created F ps types d]: the object [d] results from CreateIncremental on the
    parameters [ps] followed by RegisterValueType calls for [types]. *)
Definition created (F : fops) (ps : list param) (types : list cty) (d : dpf) : Prop :=
  exists d0, create_incremental F ps = Ok d0 /\
    Forall (fun T => cty_ok T = true) types /\
    d = fold_right register_value_type d0 types.

(** [T] is the C++ type of hierarchy level [h]. *)
Definition level_type (d : dpf) (h : nat) (T : cty) : Prop :=
  cty_ok T = true /\
  exists p, nth_error (d_params d) h = Some p /\ denotes (p_type p) T.

Record wf (d : dpf) : Prop := {
  wf_len : length (d_h2t d) = nlevels d;
  wf_len_blocks : length (d_blocks d) = nlevels d;
  wf_pos : (0 < nlevels d)%nat;
  wf_ld_z : forall h p, nth_error (d_params d) h = Some p ->
              (0 <= p_ld p <= 128)%Z /\ ld d h = Z.to_nat (p_ld p);
  wf_ld_mono : forall h h', (h < h')%nat -> (h' < nlevels d)%nat -> (ld d h < ld d h')%nat;
  wf_h2t_mono : forall h h', (h < h')%nat -> (h' < nlevels d)%nat -> (h2t d h < h2t d h')%nat;
  wf_h2t_ld : forall h, (h < nlevels d)%nat -> (h2t d h <= ld d h)%nat;
  wf_levels : d_levels d = S (h2t d (nlevels d - 1));
  wf_epb : forall h T, level_type d h T -> (2 ^ block_bits d h <= elements_per_block T)%nat;
  wf_bits : forall h p, nth_error (d_params d) h = Some p ->
     exists F sec bits, bits_needed F (p_type p) sec = Ok bits /\
        blocks d h = Z.to_nat ((bits + 127) / 128);
  wf_types : Forall (fun T => cty_ok T = true) (d_types d)
}.

Lemma validate_parameters_loop_inv : forall ps prev,
  validate_parameters_loop ps prev = Ok tt ->
  forall i p, nth_error ps i = Some p ->
    (0 <= p_ld p <= 128)%Z /\ (exists t, p_vt p = Some t /\ validate_value_type t = Ok tt) /\
    (forall q, prev = Some q -> (q < p_ld p)%Z) /\
    (forall j p', (j < i)%nat -> nth_error ps j = Some p' -> (p_ld p' < p_ld p)%Z) /\
    dbl_is_nan (p_sec p) = false /\ dbl_lt_int (p_sec p) 0 = false /\ dbl_gt_int (p_sec p) 128 = false.
Proof.
  induction ps as [|p0 ps IH]; intros prev H i p Hi; [destruct i; discriminate|].
  cbn [validate_parameters_loop] in H.
  bind_inv H. bind_inv H. bind_inv H. bind_inv H. bind_inv H. bind_inv H.
  rewrite check_ok in Hb, Hb0, Hb1, Hb3, Hb4.
  apply negb_true_iff in Hb3. apply negb_true_iff in Hb4. apply orb_false_iff in Hb4.
  destruct i as [|i]; cbn in Hi.
  - inv Hi. split; [lia|]. split; [|split; [|split]].
    + destruct (p_vt p); [|discriminate]. destruct a2. eauto.
    + intros q ->. lia.
    + intros; lia.
    + tauto.
  - pose proof (IH _ H i p Hi) as (H1 & H2 & H3 & H4 & H5). split; [auto|]. split; [auto|].
    specialize (H3 _ eq_refl).
    split; [|split; [|auto]].
    + intros q ->. lia.
    + intros [|j] p' Hj Hp'; cbn in Hp'.
      * inv Hp'. auto.
      * eapply H4; eauto. lia.
Qed.

Lemma tree_levels_inv : forall F ps needed h2t total,
  tree_levels F ps needed = Ok (h2t, total) ->
  (forall i p, nth_error ps i = Some p -> (Z.of_nat needed + Z.of_nat i <= p_ld p)%Z /\
     (forall j p', (j < i)%nat -> nth_error ps j = Some p' -> (p_ld p' < p_ld p)%Z)) ->
  length h2t = length ps /\
  (forall i p t, nth_error ps i = Some p -> nth_error h2t i = Some t ->
     (Z.of_nat t <= p_ld p)%Z /\ (needed <= t)%nat /\
     exists bits lb, bits_needed F (p_type p) (p_sec p) = Ok bits /\ log_bits_needed bits = Ok lb /\
       (p_ld p - 7 + Z.min lb 7 <= Z.of_nat t)%Z) /\
  (forall i j t t', (i < j)%nat -> nth_error h2t i = Some t -> nth_error h2t j = Some t' -> (t < t')%nat) /\
  total = match rev h2t with [] => needed | t :: _ => S t end.
Proof.
  induction ps as [|p ps IH]; intros needed h2t total H HP; cbn [tree_levels] in H.
  - inv H. split; [auto|]. split; [intros i p t Hi; destruct i; discriminate|].
    split; [intros i j t t' _ Hi; destruct i; discriminate|]. reflexivity.
  - bind_inv H. bind_inv H. bind_inv H. destruct a1 as [rest total']. inv H.
    rename a into bits. rename a0 into lb.
    pose proof (HP 0%nat p eq_refl) as [HP0 _].
    assert (Hlb : (0 <= lb)%Z).
    { unfold log_bits_needed in Hb0. destruct (bits <=? 0)%Z eqn:E; inv Hb0. apply Z.log2_up_nonneg. }
    set (tl := Z.to_nat (Z.max (Z.of_nat needed) (p_ld p - 7 + Z.min lb 7))) in *.
    assert (Htl : (Z.of_nat tl <= p_ld p)%Z) by lia.
    replace (Nat.max needed (S tl)) with (S tl) in Hb1 by lia.
    apply IH in Hb1.
    2:{ intros i q Hi. pose proof (HP (S i) q Hi) as [H1 H2]. split.
        - assert (p_ld p < p_ld q)%Z by (apply (H2 0%nat p); [lia|auto]).
          destruct i as [|i]; [lia|]. 
          (* strictly increasing integers *)
          assert (HX : forall k q', nth_error ps k = Some q' -> (p_ld p + 1 + Z.of_nat k <= p_ld q')%Z).
          { induction k as [|k IHk]; intros q' Hk.
            - pose proof (HP 1%nat q' Hk) as [_ HH]. specialize (HH 0%nat p ltac:(lia) eq_refl). lia.
            - destruct (nth_error ps k) as [q''|] eqn:Ek.
              + specialize (IHk _ eq_refl). pose proof (HP (S (S k)) q' Hk) as [_ HH].
                specialize (HH (S k) q'' ltac:(lia) Ek). lia.
              + apply nth_error_None in Ek. assert (nth_error ps (S k) <> None) by congruence.
                apply nth_error_Some in H0. lia. }
          specialize (HX (S i) q Hi). lia.
        - intros j p' Hj Hp'. apply (H2 (S j) p'); [lia|auto]. }
    destruct Hb1 as (HL & HA & HM & HT). split; [cbn; lia|]. split; [|split].
    + intros [|i] q t Hi Ht; cbn in Hi, Ht.
      * inv Hi. inv Ht. split; [auto|]. split; [lia|]. exists bits, lb. repeat split; auto. lia.
      * destruct (HA i q t Hi Ht) as (H1 & H2 & H3). split; [auto|]. split; [lia|auto].
    + intros [|i] [|j] t t' Hij Ht Ht'; cbn in Ht, Ht'; try lia.
      * inv Ht. assert (exists q, nth_error ps j = Some q) as [q Hq].
        { destruct (nth_error ps j) eqn:E; eauto. apply nth_error_None in E.
          assert (nth_error rest j <> None) by congruence. apply nth_error_Some in H. lia. }
        destruct (HA j q t' Hq Ht') as (H1 & H2 & _). lia.
      * eapply (HM i j); eauto. lia.
    + cbn [rev]. rewrite HT. destruct (rev rest) as [|x l]; reflexivity.
Qed.

Lemma fold_register : forall types d0,
  let d := fold_right register_value_type d0 types in
  d_params d = d_params d0 /\ d_levels d = d_levels d0 /\ d_h2t d = d_h2t d0 /\
  d_blocks d = d_blocks d0 /\ d_types d = types ++ d_types d0.
Proof.
  induction types as [|t types IH]; intros d0; cbn [fold_right]; cbv zeta; auto.
  specialize (IH d0). cbv zeta in IH. destruct IH as (H1 & H2 & H3 & H4 & H5).
  unfold register_value_type at 1 3 5 7 9. cbn. rewrite H5. auto.
Qed.

Lemma with_default_sec_ld : forall p, p_ld (with_default_sec p) = p_ld p.
Proof. intros p. unfold with_default_sec. destruct (dbl_is_zero (p_sec p)); reflexivity. Qed.
Lemma with_default_sec_type : forall p, p_type (with_default_sec p) = p_type p.
Proof. intros p. unfold with_default_sec. destruct (dbl_is_zero (p_sec p)); reflexivity. Qed.

(** Packing: 2^bb values fit into a block. *)
Lemma pack_bound : forall F T sec bits lb bb, cty_ok T = true ->
  bits_needed F (to_value_type T) sec = Ok bits -> log_bits_needed bits = Ok lb ->
  (Z.of_nat bb <= 7 - Z.min lb 7)%Z -> (2 ^ bb <= elements_per_block T)%nat.
Proof.
  intros F T sec bits lb bb Hok HB HL Hbb.
  pose proof (bits_needed_lower F T sec bits Hok HB) as [Hpos Hnd].
  unfold log_bits_needed in HL. destruct (bits <=? 0)%Z eqn:E0; [discriminate|]. inv HL.
  destruct (is_direct T) eqn:Hd.
  - apply bits_needed_direct in HB; auto. subst bits.
    pose proof (leaf_bytes_pos T Hok). set (L := leaf_bytes T) in *.
    destruct (Z.le_gt_cases 7 (Z.log2_up (8 * Z.of_nat L))) as [HX|HX].
    + assert (bb = 0)%nat by lia. subst bb. cbn. apply epb_pos. auto.
    + unfold elements_per_block. rewrite Hd, total_bits_leaf by auto. fold L.
      pose proof (Z.log2_up_spec (8 * Z.of_nat L) ltac:(lia)) as [_ HU].
      set (lb := Z.log2_up (8 * Z.of_nat L)) in *.
      assert (0 <= lb)%Z by apply Z.log2_up_nonneg.
      assert (HP : (2 ^ Z.of_nat bb * (8 * Z.of_nat L) <= 128)%Z).
      { apply Z.le_trans with (2 ^ (7 - lb) * 2 ^ lb)%Z.
        - apply Z.mul_le_mono_nonneg; try lia. apply Z.pow_le_mono_r; lia.
        - rewrite <- Z.pow_add_r by lia. replace (7 - lb + lb)%Z with 7%Z by lia. cbn; lia. }
      assert (HN : (2 ^ N.of_nat bb * (8 * N.of_nat L) <= 128)).
      { apply N2Z.inj_le. rewrite !N2Z.inj_mul, N2Z.inj_pow, !nat_N_Z. exact HP. }
      assert (1 <= 2 ^ N.of_nat bb) by (pose proof (pow2_pos (N.of_nat bb)); lia).
      replace (8 * N.of_nat L <=? 128) with true by (symmetry; apply N.leb_le; nia).
      assert (2 ^ N.of_nat bb <= 128 / (8 * N.of_nat L)) by (apply N.div_le_lower_bound; lia).
      assert (N.of_nat (2 ^ bb) = 2 ^ N.of_nat bb) by (rewrite Nat2N.inj_pow; reflexivity). lia.
  - specialize (Hnd eq_refl).
    assert (7 <= Z.log2_up bits)%Z.
    { change 7%Z with (Z.log2_up 128). apply Z.log2_up_le_mono. lia. }
    assert (bb = 0)%nat by lia. subst bb. cbn. apply epb_pos. auto.
Qed.

Lemma nth_rev_head : forall (l : list nat) x l', rev l = x :: l' -> nth (length l - 1) l 0%nat = x.
Proof.
  intros l x l' H. assert (l = rev l' ++ [x]).
  { rewrite <- (rev_involutive l), H. reflexivity. }
  subst l. rewrite app_length, app_nth2; cbn; try lia.
  replace (length (rev l') + 1 - 1 - length (rev l'))%nat with 0%nat by lia. reflexivity.
Qed.

Theorem created_wf : forall F ps types d, created F ps types d -> wf d /\ length (d_params d) = length ps /\
  (forall h p, nth_error ps h = Some p -> exists q, nth_error (d_params d) h = Some q /\
     p_ld q = p_ld p /\ p_type q = p_type p).
Proof.
  intros F ps types d (d0 & Hc & Hty & ->).
  pose proof (fold_register types d0) as HR. cbv zeta in HR.
  set (d := fold_right register_value_type d0 types) in *.
  clearbody d.
  unfold create_incremental in Hc. bind_inv Hc. destruct a as [[ps' needed] h2ts].
  bind_inv Hc. rename a into blks. inv Hc. cbn [d_params d_levels d_h2t d_blocks d_types] in *.
  unfold validator_create in Hb. bind_inv Hb. bind_inv Hb. destruct a0 as [h2ts' needed']. inv Hb.
  destruct HR as (HR1 & HR2 & HR3 & HR4 & HR5).
  unfold validate_parameters in Hb1. bind_inv Hb1. apply check_ok in Hb. apply negb_true_iff in Hb.
  apply Nat.eqb_neq in Hb. destruct a. pose proof (validate_parameters_loop_inv _ _ Hb1) as HV.
  assert (HNm : forall i q, nth_error (map with_default_sec ps) i = Some q ->
     exists p, nth_error ps i = Some p /\ q = with_default_sec p).
  { intros i q Hi. rewrite nth_error_map in Hi. destruct (nth_error ps i); inv Hi. eauto. }
  assert (HVm : forall i q, nth_error (map with_default_sec ps) i = Some q ->
     (0 <= p_ld q <= 128)%Z /\ forall j q', (j < i)%nat ->
       nth_error (map with_default_sec ps) j = Some q' -> (p_ld q' < p_ld q)%Z).
  { intros i q Hi. apply HNm in Hi. destruct Hi as (p & Hi & ->). rewrite with_default_sec_ld.
    destruct (HV i p Hi) as (H1 & _ & _ & H2 & _). split; [lia|].
    intros j q' Hj Hq'. apply HNm in Hq'. destruct Hq' as (p' & Hj' & ->).
    rewrite with_default_sec_ld. eauto. }
  pose proof Hb2 as HTL. apply tree_levels_inv in HTL.
  2:{ intros i q Hi. split; [|intros; eapply HVm; eauto].
      revert q Hi. induction i as [|i IHi]; intros q Hi.
      - apply HVm in Hi. lia.
      - destruct (nth_error (map with_default_sec ps) i) as [q'|] eqn:E.
        + specialize (IHi _ eq_refl). pose proof (HVm _ _ Hi) as [_ HH].
          specialize (HH i q' ltac:(lia) E). lia.
        + apply nth_error_None in E. assert (nth_error (map with_default_sec ps) (S i) <> None) by congruence.
          apply nth_error_Some in H. lia. }
  destruct HTL as (HL & HA & HM & HT). rewrite map_length in HL.
  assert (Hnl : nlevels d = length ps) by (unfold nlevels; rewrite HR1, map_length; auto).
  assert (Hld : forall h q, nth_error (d_params d) h = Some q -> ld d h = Z.to_nat (p_ld q)).
  { intros h q Hq. unfold ld. rewrite Hq. reflexivity. }
  assert (Hh2t : forall h, (h < length ps)%nat -> nth_error h2ts h = Some (h2t d h)).
  { intros h Hh. unfold h2t. rewrite HR3. apply nth_error_nth'. lia. }
  assert (Hget : forall h, (h < length ps)%nat -> exists q, nth_error (d_params d) h = Some q).
  { intros h Hh. destruct (nth_error (d_params d) h) eqn:E; eauto. apply nth_error_None in E.
    rewrite HR1, map_length in E. lia. }
  split; [|split].
  2:{ rewrite HR1, map_length. auto. }
  2:{ intros h p Hp. exists (with_default_sec p). rewrite HR1. split; [|split].
      - apply nth_error_map_some. auto.
      - apply with_default_sec_ld.
      - apply with_default_sec_type. }
  constructor; rewrite ?Hnl.
  - rewrite HR3. auto.
  - rewrite HR4. apply mapM_length in Hb0. auto.
  - lia.
  - intros h q Hq. split; auto. rewrite HR1 in Hq. apply HVm in Hq. tauto.
  - intros h h' Hh Hh'. destruct (Hget h ltac:(lia)) as [q Hq]. destruct (Hget h' Hh') as [q' Hq'].
    rewrite (Hld _ _ Hq), (Hld _ _ Hq'). rewrite HR1 in Hq, Hq'. pose proof (HVm _ _ Hq) as [? _].
    pose proof (HVm _ _ Hq') as [? HH]. specialize (HH _ _ Hh Hq). lia.
  - intros h h' Hh Hh'. eapply HM; [exact Hh| |]; apply Hh2t; lia.
  - intros h Hh. destruct (Hget h Hh) as [q Hq]. rewrite (Hld _ _ Hq).
    rewrite HR1 in Hq. destruct (HA h q (h2t d h) Hq (Hh2t h Hh)) as (H1 & _). lia.
  - rewrite HR2, HT. destruct (rev h2ts) as [|x l] eqn:Er.
    + apply (f_equal (@length nat)) in Er. rewrite rev_length in Er. cbn in Er. lia.
    + f_equal. unfold h2t. rewrite HR3. rewrite <- HL. symmetry. eapply nth_rev_head; eauto.
  - intros h T (Hok & q & Hq & HD).
    assert (Hh : (h < length ps)%nat).
    { assert (nth_error (d_params d) h <> None) by congruence. apply nth_error_Some in H.
      rewrite HR1, map_length in H. auto. }
    pose proof (Hld _ _ Hq) as Hl. rewrite HR1 in Hq.
    destruct (HA h q (h2t d h) Hq (Hh2t h Hh)) as (H1 & _ & bits & lb & HB & HLB & HT2).
    rewrite (bits_needed_denotes _ T) in HB by auto.
    eapply pack_bound; eauto. unfold block_bits. rewrite Hl. lia.
  - intros h q Hq.
    assert (Hh : (h < length ps)%nat).
    { assert (nth_error (d_params d) h <> None) by congruence. apply nth_error_Some in H.
      rewrite HR1, map_length in H. auto. }
    rewrite HR1 in Hq. apply HNm in Hq. destruct Hq as (p & Hp & ->).
    apply mapM_ok_iff in Hb0. apply Forall2_nth_error in Hb0. destruct Hb0 as [HBL HBN].
    assert (exists b, nth_error blks h = Some b) as [b Hbk].
    { destruct (nth_error blks h) eqn:E; eauto. apply nth_error_None in E. lia. }
    specialize (HBN _ _ _ Hp Hbk). cbn in HBN. bind_inv HBN. injection HBN as HBN.
    exists F, (p_sec p), a. rewrite with_default_sec_type. split; auto.
    unfold blocks. rewrite HR4, HBN. apply nth_error_nth. auto.
  - rewrite HR5. apply Forall_app. split; auto. repeat constructor.
Qed.
