(** Acceptance of parameters and of key generation arguments. *)
From Coq Require Import List NArith ZArith QArith Lia Bool ZifyBool ZifyNat ZifyN.
From Verif Require Import Base ListUtil ValueTypesModel ValueTypesSpec ValueTypesProofs
  ConvProofs BitsProofs TypeProofs DpfModel DpfTree DpfWf DpfGen DpfEval DpfPoint DpfCtx DpfSpec DpfHist DpfReach DpfSafe.
Import ListNotations.
Ltac Zify.zify_post_hook ::= Z.div_mod_to_equations.
Open Scope N_scope.

(** * ValidateParameters *)

Lemma validate_integer_type_iff : forall b, validate_integer_type b = Ok tt <-> bitsize_ok b.
Proof.
  intros b. unfold validate_integer_type. split.
  - intros H. destruct (b <? 1)%Z eqn:E1; [discriminate|]. destruct (128 <? b)%Z eqn:E2; [discriminate|].
    destruct (Z.land b (b - 1) =? 0)%Z eqn:E3; [|discriminate].
    assert (HA : forallb (fun n => let z := Z.of_nat n in
        negb (Z.land z (z - 1) =? 0)%Z || (z =? 0)%Z || existsb (fun k => (z =? 2 ^ k)%Z) [0;1;2;3;4;5;6;7]%Z)
        (seq 0 129) = true) by (vm_compute; reflexivity).
    rewrite forallb_forall in HA. specialize (HA (Z.to_nat b) ltac:(apply in_seq; lia)). cbv zeta in HA.
    rewrite Z2Nat.id in HA by lia. rewrite E3 in HA. cbn [negb orb] in HA.
    replace (b =? 0)%Z with false in HA by lia. cbn [orb] in HA.
    apply existsb_exists in HA. destruct HA as (k & Hk & He). apply Z.eqb_eq in He. exists k. split; auto.
    cbn in Hk. lia.
  - intros (k & Hk & ->).
    assert (k = 0 \/ k = 1 \/ k = 2 \/ k = 3 \/ k = 4 \/ k = 5 \/ k = 6 \/ k = 7)%Z as HK by lia.
    repeat (destruct HK as [->|HK]; [reflexivity|]). subst. reflexivity.
Qed.
Lemma validate_integer_type_ooi : forall b, ok_or_invalid (validate_integer_type b).
Proof.
  intros b. unfold validate_integer_type. destruct (_ <? _)%Z; [reflexivity|]. destruct (_ <? _)%Z; [reflexivity|].
  destruct (negb _); [reflexivity|exact I].
Qed.
Lemma vinteger_ooi : forall i, ok_or_invalid (vinteger_to_uint128 i).
Proof. intros [| |]; cbn; auto. Qed.
Lemma validate_integer_value_ooi : forall i b, ok_or_invalid (validate_integer_value i b).
Proof.
  intros i b. unfold validate_integer_value. destruct (_ <? _)%Z; [|exact I]. apply ooi_bind; [apply vinteger_ooi|].
  intros x _. destruct (_ <=? _); [reflexivity|exact I].
Qed.

Lemma validate_value_type_ooi : forall t, ok_or_invalid (validate_value_type t).
Proof.
  induction t as [|w|w m|w|ts IH] using ptype_ind'; cbn [validate_value_type]; auto using validate_integer_type_ooi.
  - reflexivity.
  - apply ooi_bind; auto using validate_integer_type_ooi. intros. apply validate_integer_value_ooi.
  - apply ooi_iterM. rewrite Forall_forall in IH. auto.
Qed.

Lemma validate_value_type_iff : forall t, validate_value_type t = Ok tt <-> type_wf t.
Proof.
  induction t as [|w|w m|w|ts IH] using ptype_ind'; cbn [validate_value_type].
  - split; intros H; [discriminate|inv H].
  - rewrite validate_integer_type_iff. split; intros H; [constructor; auto|inv H; auto].
  - rewrite bind_ok. split.
    + intros ([] & H1 & H2). apply validate_integer_type_iff in H1. constructor; auto.
      unfold validate_integer_value in H2. destruct (w <? 128)%Z eqn:E.
      * bind_inv H2. right. exists a. apply vinteger_to_uint128_encodes in Hb. split; auto.
        destruct (2 ^ Z.to_N w <=? a) eqn:E2; [discriminate|]. lia.
      * left. destruct H1 as (k & Hk & ->). assert (2 ^ k <= 2 ^ 7)%Z by (apply Z.pow_le_mono_r; lia).
        change (2 ^ 7)%Z with 128%Z in H. lia.
    + intros H. inv H. exists tt. split; [apply validate_integer_type_iff; auto|].
      unfold validate_integer_value. destruct H3 as [->|(x & He & Hx)]; [reflexivity|].
      destruct (w <? 128)%Z; auto. apply vinteger_to_uint128_encodes in He. rewrite He. cbn [bind].
      replace (2 ^ Z.to_N w <=? x) with false by lia. reflexivity.
  - rewrite validate_integer_type_iff. split; intros H; [constructor; auto|inv H; auto].
  - rewrite iterM_ok. split; intros H.
    + constructor. rewrite Forall_forall in *. intros t Ht. apply IH; auto.
    + inv H. rewrite Forall_forall in *. intros t Ht. apply IH; auto.
Qed.

Lemma sec_ok_iff : forall s, sec_ok s <-> dbl_is_nan s = false /\ dbl_lt_int s 0 = false /\ dbl_gt_int s 128 = false.
Proof.
  intros [|[|]|q]; cbn; try (split; [tauto|intros (? & ? & ?); discriminate]).
  rewrite !negb_false_iff, !Qle_bool_iff. unfold inject_Z. split; intros H; tauto.
Qed.

Definition prev_lt (prev : option Z) (ps : list param) : Prop :=
  match prev, ps with Some q, p :: _ => (q < p_ld p)%Z | _, _ => True end.

Lemma increasing_cons : forall ps p,
  (forall i j a b, (i < j)%nat -> nth_error (p :: ps) i = Some a -> nth_error (p :: ps) j = Some b -> (p_ld a < p_ld b)%Z)
  <-> prev_lt (Some (p_ld p)) ps /\
      (forall i j a b, (i < j)%nat -> nth_error ps i = Some a -> nth_error ps j = Some b -> (p_ld a < p_ld b)%Z).
Proof.
  intros ps p. split.
  - intros H. split.
    + destruct ps as [|q ps]; cbn; auto. apply (H 0%nat 1%nat); auto.
    + intros i j a b Hij Ha Hb. apply (H (S i) (S j)); auto. lia.
  - intros [H1 H2] [|i] [|j] a b Hij Ha Hb; try lia.
    + cbn in Ha, Hb. inv Ha. destruct ps as [|q ps]; [destruct j; discriminate|]. cbn in H1.
      destruct j as [|j]; [cbn in Hb; inv Hb; auto|].
      pose proof (H2 0%nat (S j) q b ltac:(lia) eq_refl Hb). lia.
    + eapply (H2 i j); eauto. lia.
Qed.

Lemma validate_loop_iff : forall ps prev, validate_parameters_loop ps prev = Ok tt <->
  prev_lt prev ps /\ Forall (fun p => 0 <= p_ld p <= 128)%Z ps /\
  (forall i j p q, (i < j)%nat -> nth_error ps i = Some p -> nth_error ps j = Some q -> (p_ld p < p_ld q)%Z) /\
  Forall (fun p => exists t, p_vt p = Some t /\ type_wf t) ps /\ Forall (fun p => sec_ok (p_sec p)) ps.
Proof.
  induction ps as [|p ps IH]; intros prev; cbn [validate_parameters_loop].
  - split; auto. intros _. split; [destruct prev; exact I|]. split; [constructor|].
    split; [intros [|i]; discriminate|]. split; constructor.
  - rewrite increasing_cons. split.
    + intros H. bind_inv H. bind_inv H. bind_inv H. bind_inv H. bind_inv H. bind_inv H.
      rewrite check_ok in Hb, Hb0, Hb1, Hb3, Hb4. apply IH in H. destruct H as (H1 & H2 & H3 & H4 & H5).
      split; [destruct prev; cbn; auto; lia|]. split; [constructor; auto; lia|]. split; [auto|].
      split; constructor; auto.
      * destruct (p_vt p) as [t|]; [|discriminate]. exists t. split; auto. destruct a2. apply validate_value_type_iff. auto.
      * apply sec_ok_iff. rewrite negb_true_iff in Hb3, Hb4. apply orb_false_iff in Hb4. tauto.
    + intros (H1 & H2 & [H3 H3'] & H4 & H5). fcons H2 H2h H2t. fcons H4 H4h H4t. fcons H5 H5h H5t.
      destruct H4h as (t & -> & Ht). apply validate_value_type_iff in Ht. apply sec_ok_iff in H5h.
      destruct H5h as (Hn & Hl & Hg). rewrite Ht, Hn, Hl, Hg.
      replace (0 <=? p_ld p)%Z with true by lia. replace (p_ld p <=? 128)%Z with true by lia. cbn [check bind negb orb].
      assert (HP : check (match prev with None => true | Some q => (q <? p_ld p)%Z end) INVALID_ARGUMENT = Ok tt).
      { destruct prev; auto. cbn in H1. apply check_ok. lia. }
      rewrite HP. cbn [bind]. apply IH. auto.
Qed.

Lemma validate_parameters_iff : forall ps, validate_parameters ps = Ok tt <-> documented ps.
Proof.
  intros ps. unfold validate_parameters. rewrite bind_ok. split.
  - intros (u & H1 & H2). apply check_ok in H1. apply validate_loop_iff in H2.
    destruct H2 as (_ & H2 & H3 & H4 & H5). constructor; auto. intros ->. discriminate.
  - intros [H1 H2 H3 H4 H5]. exists tt. split.
    + apply check_ok. destruct ps; [congruence|reflexivity].
    + apply validate_loop_iff. repeat split; auto.
Qed.

Lemma validate_parameters_ooi : forall ps, ok_or_invalid (validate_parameters ps).
Proof.
  intros ps. unfold validate_parameters. apply ooi_bind; [apply ooi_check|]. intros _ _.
  generalize (@None Z). induction ps as [|p ps IH]; intros prev; cbn [validate_parameters_loop]; [exact I|].
  do 3 (apply ooi_bind; [apply ooi_check|intros _ _]).
  apply ooi_bind; [destruct (p_vt p); [apply validate_value_type_ooi|reflexivity]|intros _ _].
  do 2 (apply ooi_bind; [apply ooi_check|intros _ _]). apply IH.
Qed.

(** * BitsNeeded and Create *)

Lemma bits_count_any : forall els f a b f' a' b', bits_count els f a b = Ok (f', a', b') ->
  (forall x, f = Some x -> is_int_mod_n x = true) -> (f = None -> a = 0%Z) -> (0 <= a)%Z -> (f <> None -> 1 <= a)%Z ->
  (forall x, f' = Some x -> is_int_mod_n x = true) /\ (f' = None -> a' = 0%Z) /\ (f' <> None -> 1 <= a')%Z /\
  (b <= b' <= b + Z.of_nat (length els))%Z /\ (a' + b' = a + b + Z.of_nat (length els))%Z.
Proof.
  induction els as [|e els IH]; intros f a b f' a' b' H H1 H2 H3 H4; cbn [bits_count length] in *.
  - inv H. split; auto. split; auto. split; auto. lia.
  - destruct (is_int_mod_n e) eqn:E.
    + destruct f as [x|].
      * bind_inv H. destruct a0; [|discriminate]. assert (1 <= a)%Z by (apply H4; discriminate).
        assert (HX := IH _ _ _ _ _ _ H H1 ltac:(discriminate) ltac:(lia) ltac:(lia)).
        destruct HX as (C1 & C2 & C3 & C4 & C5). repeat (split; [assumption||lia|]). lia.
      * rewrite H2 in * by auto.
        assert (HX := IH _ _ _ _ _ _ H ltac:(intros x Hx; inv Hx; auto) ltac:(discriminate) ltac:(lia) ltac:(lia)).
        destruct HX as (C1 & C2 & C3 & C4 & C5). repeat (split; [assumption||lia|]). lia.
    + assert (HX := IH _ _ _ _ _ _ H H1 H2 H3 H4).
      destruct HX as (C1 & C2 & C3 & C4 & C5). repeat (split; [assumption||lia|]). lia.
Qed.

Lemma bits_count_safe : forall els f a b, safe (bits_count els f a b).
Proof.
  induction els as [|e els IH]; intros f a b; cbn [bits_count]; [apply ok_safe|].
  destruct (is_int_mod_n e); auto. destruct f; auto.
  apply bind_safe; [apply ooi_safe, value_types_equal_ooi|]. intros [|] _; auto using err_safe.
Qed.

Lemma num_bytes_pos : forall F n b m sec, safe (get_num_bytes_required F n b m sec) /\
  forall z, get_num_bytes_required F n b m sec = Ok z -> (16 <= z <= 16 * n)%Z.
Proof.
  intros F n b m sec. unfold get_num_bytes_required, check_parameters.
  destruct (n <=? 0)%Z eqn:E1; [split; [apply err_safe|discriminate]|].
  destruct (b <=? 0)%Z eqn:E2; [split; [apply err_safe|discriminate]|].
  destruct (128 <? b)%Z eqn:E3; [split; [apply err_safe|discriminate]|].
  destruct (_ && _); [split; [apply err_safe|discriminate]|].
  destruct (f_gt_level _ _ _ _); [split; [apply err_safe|discriminate]|].
  cbn [bind]. split; [apply ok_safe|]. intros z H. inv H.
  assert (1 <= (b + 7) / 8 <= 16)%Z by lia. set (c := ((b + 7) / 8)%Z) in *. nia.
Qed.

Lemma leaves_pos : forall t, no_empty_tuple t = true -> (1 <= leaves t)%Z.
Proof.
  induction t as [|w|w m|w|ts IH] using ptype_ind'; intros H; cbn [leaves no_empty_tuple] in *; try lia.
  apply andb_true_iff in H. destruct H as [H1 H2]. destruct ts as [|t ts]; [discriminate|].
  cbn [forallb fold_right] in *. apply andb_true_iff in H2. destruct H2 as [H2 H3]. fcons IH IHh IHt.
  specialize (IHh H2). clear H1 H2.
  enough (0 <= fold_right (fun e n => leaves e + n)%Z 0%Z ts)%Z by lia. clear IHh.
  induction ts as [|e ts IHl]; cbn [fold_right forallb] in *; [lia|].
  apply andb_true_iff in H3. destruct H3 as [H3 H4]. fcons IHt H5 H6. specialize (H5 H3). specialize (IHl H6 H4). lia.
Qed.
Lemma leaves_length : forall ts, forallb no_empty_tuple ts = true ->
  (Z.of_nat (length ts) <= fold_right (fun e n => leaves e + n)%Z 0%Z ts)%Z.
Proof.
  induction ts as [|e ts IH]; intros H; cbn [fold_right forallb length] in *; [lia|].
  apply andb_true_iff in H. destruct H as [H1 H2]. specialize (IH H2). pose proof (leaves_pos e H1). lia.
Qed.

(** Bits that the elements in question can take: 128 for IntModN, 256 times their leaves
    for others. *)
Definition bits_max (t : ptype) : Z := if is_int_mod_n t then 128%Z else (256 * leaves t)%Z.
Fixpoint sum_max (ts : list ptype) : Z := match ts with [] => 0%Z | t :: ts' => (bits_max t + sum_max ts')%Z end.
Lemma sum_max_mods : forall els f a b f' a' b',
  bits_count els f a b = Ok (f', a', b') ->
  (sum_max els + 128 * (a' - a) <= 256 * fold_right (fun e n => leaves e + n)%Z 0%Z els)%Z.
Proof.
  induction els as [|e els IH]; intros f a b f' a' b' H; cbn [bits_count sum_max fold_right] in *; [inv H; lia|].
  unfold bits_max. destruct (is_int_mod_n e) eqn:E.
  - destruct e; try discriminate. cbn [leaves]. destruct f.
    + bind_inv H. destruct a0; [|discriminate]. apply IH in H. lia.
    + apply IH in H. lia.
  - apply IH in H. lia.
Qed.

Lemma bits_needed_any : forall F t, type_wf t -> no_empty_tuple t = true -> (256 * leaves t < 2147483648)%Z ->
  forall sec, safe (bits_needed F t sec) /\ forall z, bits_needed F t sec = Ok z -> (1 <= z <= bits_max t)%Z.
Proof.
  intros F. induction t as [|w|w m|w|ts IH] using ptype_ind'; intros HW HN HL sec; cbn [bits_needed];
    unfold bits_max; cbn [is_int_mod_n leaves].
  - inv HW.
  - inv HW. destruct H0 as (k & Hk & ->). split; [apply ok_safe|]. intros z Hz. inv Hz.
    pose proof (Z.pow_pos_nonneg 2 k). pose proof (Z.pow_le_mono_r 2 k 7). change (2 ^ 7)%Z with 128%Z in *. lia.
  - destruct (vinteger_to_uint128 m) as [x| | |] eqn:Em; cbn [bind]; try (split; [solve [assumption|apply err_safe|congruence]|discriminate]).
    + destruct (num_bytes_pos F 1 w x sec) as [HS HP].
      destruct (get_num_bytes_required F 1 w x sec) as [z| | |]; cbn [bind].
      * split; [apply ok_safe|]. intros z' Hz. inv Hz. specialize (HP _ eq_refl). lia.
      * split; [apply err_safe|discriminate].
      * split; [exact HS|discriminate].
      * split; [exact HS|discriminate].
    + exfalso. destruct m; discriminate Em.
    + exfalso. destruct m; discriminate Em.
  - inv HW. destruct H0 as (k & Hk & ->). split; [apply ok_safe|]. intros z Hz. inv Hz.
    pose proof (Z.pow_pos_nonneg 2 k). pose proof (Z.pow_le_mono_r 2 k 7). change (2 ^ 7)%Z with 128%Z in *. lia.
  - inv HW. cbn [no_empty_tuple] in HN. apply andb_true_iff in HN. destruct HN as [HN1 HN2].
    cbn [leaves] in HL. pose proof HN2 as HN3.
    rewrite forallb_forall in HN2.
    destruct (bits_count_safe ts None 0 0) as [HSa HSb].
    destruct (bits_count ts None 0 0) as [[[f nmod] nother]| | |] eqn:EC; cbn [bind];
      try (split; [solve [assumption|apply err_safe|congruence]|discriminate]).
    assert (EC' := bits_count_any _ _ _ _ _ _ _ EC ltac:(discriminate) ltac:(reflexivity) ltac:(lia) ltac:(congruence)).
    apply sum_max_mods in EC.
    destruct EC' as (C1 & C2 & C3 & C4 & C5).
    assert (HLe : forall e, In e ts -> (256 * leaves e < 2147483648)%Z).
    { intros e He. clear - HL HN3 He. induction ts as [|t ts IH]; [destruct He|]. cbn [fold_right forallb] in *.
      apply andb_true_iff in HN3. destruct HN3 as [H1 H2]. pose proof (leaves_length ts H2). pose proof (leaves_pos t H1).
      destruct He as [->|He]; [lia|]. apply IH; auto. lia. }
    assert (HMx : forall l, incl l ts -> (0 <= sum_max l)%Z).
    { induction l as [|e l IHl]; intros Hi; cbn [sum_max]; [lia|]. assert (In e ts) by (apply Hi; left; auto).
      pose proof (leaves_pos e (HN2 e H)). specialize (IHl ltac:(intros x Hx; apply Hi; right; auto)).
      unfold bits_max. destruct (is_int_mod_n e); lia. }
    assert (HO : forall l n acc, (n <= length l)%nat -> incl l ts -> (0 <= acc)%Z -> (acc + sum_max l < 2147483648)%Z ->
       safe (bits_other (fun el => bits_needed F el (f_add_log2 F sec (Z.to_N nother))) l n acc) /\
       forall z, bits_other (fun el => bits_needed F el (f_add_log2 F sec (Z.to_N nother))) l n acc = Ok z ->
         (acc + Z.of_nat n <= z <= acc + sum_max l)%Z).
    { induction l as [|e l IHl]; intros [|n] acc Hn Hi Ha Hm; pose proof (HMx _ Hi) as HM0;
        cbn [bits_other length sum_max] in *; try lia;
        try (split; [apply ok_safe|intros z Hz; inv Hz; lia]).
      assert (He : In e ts) by (apply Hi; left; auto).
      assert (Hi' : incl l ts) by (intros x Hx; apply Hi; right; auto). pose proof (HMx _ Hi') as HM1.
      rewrite Forall_forall in IH, H0.
      destruct (IH e He (H0 e He) (HN2 e He) (HLe e He) (f_add_log2 F sec (Z.to_N nother))) as [HS1 HP1].
      destruct (bits_needed F e _) as [z1| | |]; cbn [bind];
        try (split; [solve [assumption|apply err_safe|congruence]|discriminate]).
      specialize (HP1 _ eq_refl). rewrite int_or_ub_ok by lia. cbn [bind].
      destruct (IHl n (acc + z1)%Z ltac:(lia) Hi' ltac:(lia) ltac:(lia)) as [HS2 HP2].
      split; [exact HS2|]. intros z Hz. specialize (HP2 _ Hz). lia. }
    assert (Hmod : (0 <= nmod)%Z) by (destruct f; [specialize (C3 ltac:(discriminate))|specialize (C2 eq_refl)]; lia).
    destruct (HO ts (Z.to_nat nother) 0%Z ltac:(lia) ltac:(apply incl_refl) ltac:(lia) ltac:(lia)) as [HS1 HP1].
    destruct (bits_other _ ts _) as [zo| | |]; cbn [bind];
        try (split; [solve [assumption|apply err_safe|congruence]|discriminate]).
    specialize (HP1 _ eq_refl). pose proof (HMx ts (incl_refl _)) as HM0.
    destruct f as [x|].
    + specialize (C1 x eq_refl). destruct x as [| | |b m|]; try discriminate.
      destruct (vinteger_to_uint128 m) as [x| | |] eqn:Em; cbn [bind]; try (split; [solve [assumption|apply err_safe|congruence]|discriminate]).
      2-3: exfalso; destruct m; discriminate Em.
      destruct (num_bytes_pos F nmod b x sec) as [HS2 HP2].
      destruct (get_num_bytes_required F nmod b x sec) as [z| | |]; cbn [bind];
        try (split; [solve [assumption|apply err_safe|congruence]|discriminate]).
      specialize (HP2 _ eq_refl). rewrite int_or_ub_ok by lia. cbn [bind]. rewrite int_or_ub_ok by lia.
      split; [apply ok_safe|]. intros z' Hz. inv Hz. lia.
    + cbn [bind]. rewrite int_or_ub_ok by lia.
      split; [apply ok_safe|]. intros z Hz. inv Hz. specialize (C2 eq_refl). subst nmod.
      destruct ts; [discriminate|]. cbn [length] in *. lia.
Qed.

Lemma tree_levels_safe : forall F ps needed,
  Forall (fun p => type_wf (p_type p) /\ no_empty_tuple (p_type p) = true /\ (leaves (p_type p) < 2 ^ 23)%Z) ps ->
  safe (tree_levels F ps needed).
Proof.
  intros F. induction ps as [|p ps IH]; intros needed HF; cbn [tree_levels]; [apply ok_safe|].
  fcons HF Hp HF'. destruct Hp as (H1 & H2 & H3). change (2 ^ 23)%Z with 8388608%Z in H3.
  destruct (bits_needed_any F _ H1 H2 ltac:(lia) (p_sec p)) as [HS HP].
  apply bind_safe; auto. intros bits Hb. specialize (HP _ Hb). unfold log_bits_needed.
  replace (bits <=? 0)%Z with false by lia. cbn [bind]. apply bind_safe; auto. intros [r t] _. apply ok_safe.
Qed.

Lemma p_type_some : forall p t, p_vt p = Some t -> p_type p = t.
Proof. intros p t H. unfold p_type. rewrite H. auto. Qed.

Theorem create_rejects : forall F ps, ~ documented ps -> create_incremental F ps = Err INVALID_ARGUMENT.
Proof.
  intros F ps H. unfold create_incremental, validator_create.
  rewrite (ooi_not_ok _ (validate_parameters ps)); auto using validate_parameters_ooi.
  intros [] HX. apply H. apply validate_parameters_iff. auto.
Qed.

Theorem create_safe : forall F ps,
  Forall (fun p => no_empty_tuple (p_type p) = true /\ (leaves (p_type p) < 2 ^ 23)%Z) ps ->
  safe (create_incremental F ps).
Proof.
  intros F ps HN. unfold create_incremental, validator_create.
  apply bind_safe.
  - apply bind_safe; [apply ooi_safe, validate_parameters_ooi|]. intros [] HV.
    apply validate_parameters_iff in HV. apply bind_safe; [|intros [h2t needed] _; apply ok_safe].
    apply tree_levels_safe. rewrite Forall_map. pose proof (doc_type _ HV) as HT.
    rewrite Forall_forall in *. intros p Hp. rewrite with_default_sec_type. split; [|auto].
    destruct (HT p Hp) as (t & Ht & Hwf). rewrite (p_type_some _ _ Ht). auto.
  - intros [[ps' needed] h2t] HV. bind_inv HV. destruct a. apply validate_parameters_iff in Hb.
    apply bind_safe; [|intros; apply ok_safe]. apply mapM_safe. intros p Hp.
    pose proof (doc_type _ Hb) as HT. rewrite Forall_forall in HT, HN.
    destruct (HT p Hp) as (t & Ht & Hwf). destruct (HN p Hp) as [HN1 HN2]. change (2 ^ 23)%Z with 8388608%Z in HN2.
    destruct (bits_needed_any F (p_type p)) with (sec := p_sec p) as [HS _]; auto; [|lia|].
    { rewrite (p_type_some _ _ Ht). auto. }
    apply bind_safe; auto. intros. apply ok_safe.
Qed.

(** Types for which BitsNeeded returns no error. *)
Lemma bind_no_err : forall A B (x : res A) (f : A -> res B), (forall c, x <> Err c) ->
  (forall a, x = Ok a -> forall c, f a <> Err c) -> forall c, bind x f <> Err c.
Proof.
  intros A B x f H1 H2 c. destruct x; cbn [bind]; try discriminate; auto. exfalso. eapply H1. reflexivity.
Qed.
Lemma int_or_ub_no_err : forall z c, int_or_ub z <> Err c.
Proof. intros z c. unfold int_or_ub. destruct (_ && _); discriminate. Qed.
Lemma num_bytes_no_err : forall F n w m sec, (1 <= n)%Z -> cty_ok (TMod w m) = true ->
  f_gt_level F sec (Z.to_N n) m = false -> forall c, get_num_bytes_required F n (Z.of_N w) m sec <> Err c.
Proof.
  intros F n w m sec Hn Hok HF c. apply cty_ok_mod in Hok. destruct Hok as (Hw & Hm0 & Hm1).
  unfold get_num_bytes_required, check_parameters. rewrite HF. rewrite N2Z.id.
  assert (0 < w <= 128) by (widths Hw; lia).
  replace (n <=? 0)%Z with false by lia. replace (Z.of_N w <=? 0)%Z with false by lia.
  replace (128 <? Z.of_N w)%Z with false by lia. replace (2 ^ w <? m) with false by lia.
  rewrite andb_false_r. discriminate.
Qed.
Lemma mods_nmods : forall ts, length (mods ts) = nmods ts /\ (length ts - length (mods ts))%nat = nothers ts.
Proof.
  assert (HH : forall ts, length (mods ts) = nmods ts /\ (nothers ts + nmods ts = length ts)%nat).
  { induction ts as [|t ts [IH1 IH2]]; [cbn; auto|]. unfold mods in *. cbn [filter nmods nothers].
    destruct t; cbn [is_mod length]; lia. }
  intros ts. destruct (HH ts). lia.
Qed.

Lemma bits_needed_no_err : forall F T, cty_ok T = true -> uniform T -> forall sec, samples_securely F sec T ->
  forall c, bits_needed F (to_value_type T) sec <> Err c.
Proof.
  intros F. induction T as [w|w m|w|ts IH] using cty_ind'; intros Hok HU sec HS; cbn [to_value_type bits_needed]; try discriminate.
  - inv HS. pose proof Hok as Hok'. apply cty_ok_mod in Hok'. destruct Hok' as (Hw & Hm0 & Hm1).
    assert (Hm : m < P128).
    { pose proof (cwidth_le128 w Hw). lia. }
    rewrite vinteger_round_trip by auto. cbn [bind]. apply bind_no_err; [|discriminate].
    apply num_bytes_no_err; auto. lia.
  - apply cty_ok_tup in Hok. destruct Hok as [Hne Hok]. inv HU. rename H0 into HUs. rename H1 into Heq.
    inversion HS as [| | |sec0 ts0 HSe HSm]; subst.
    assert (HCt : forall l f a b, incl l ts ->
       (forall x, f = Some x -> exists w m, x = to_value_type (TMod w m) /\ In (TMod w m) ts) ->
       exists r, bits_count (map to_value_type l) f a b = Ok r).
    { induction l as [|t l IHl]; intros f a b Hi Hf; cbn [map bits_count]; eauto.
      assert (Ht : In t ts) by (apply Hi; left; auto).
      assert (Hi' : incl l ts) by (intros x Hx; apply Hi; right; auto).
      rewrite to_value_type_mod. destruct (is_mod t) eqn:Em; [|apply IHl; auto].
      destruct t as [|wt mt| |]; try discriminate.
      destruct f as [x|].
      - destruct (Hf x eq_refl) as (w & m & -> & Hin). destruct (Heq _ _ _ _ Ht Hin) as [-> ->].
        rewrite (value_types_equal_refl (TMod w m)).
        + cbn [bind]. apply IHl; auto.
        + apply to_value_type_denotes. rewrite Forall_forall in Hok. auto.
      - apply IHl; auto. intros x Hx. inv Hx. exists wt, mt. auto. }
    destruct (HCt ts None 0%Z 0%Z (incl_refl _) ltac:(discriminate)) as ([[f nmod] nother] & HCo).
    rewrite HCo. cbn [bind].
    assert (HCo' := bits_count_any _ _ _ _ _ _ _ HCo ltac:(discriminate) ltac:(reflexivity) ltac:(lia) ltac:(congruence)).
    rewrite map_length in HCo'. destruct HCo' as (C1 & C2 & C3 & C4 & C5).
    destruct (mods_nmods ts) as [HM1 HM2]. rewrite HM2 in HSe. rewrite HM1 in HSm.
    apply bits_count_spec in HCo. destruct HCo as ([-> ->] & Hf & _). cbv beta iota in Hf.
    replace (Z.to_N (0 + Z.of_nat (nothers ts))) with (N.of_nat (nothers ts)) by lia.
    apply bind_no_err.
    { generalize (Z.to_nat (0 + Z.of_nat (nothers ts))). generalize 0%Z at 1. intros z0 n0. revert n0 z0. clear C1 C2 C3 C4 C5 Hf HM1 HM2 HCt Hne HS HSm Heq.
      revert HSe. generalize (f_add_log2 F sec (N.of_nat (nothers ts))) as sec'. intros sec' HSe.
      induction ts as [|t ts IHts]; intros [|n] z c; cbn [map bits_other]; try discriminate.
      fcons IH IHh IHt. fcons Hok Hokh Hokt. fcons HUs HUh HUt. revert c. apply bind_no_err.
      - apply IHh; auto. apply HSe. left. reflexivity.
      - intros b Hb. apply bind_no_err; [apply int_or_ub_no_err|]. intros acc' _ c.
        apply IHts; auto. intros t' Ht'. apply HSe. right. exact Ht'. }
    intros zo _. apply bind_no_err; [|intros; apply int_or_ub_no_err].
    destruct f as [x|]; [|discriminate].
    destruct (find is_mod ts) as [tm|] eqn:Hfind; [|discriminate].
    apply find_some in Hfind. destruct Hfind as [HIn Hism].
    destruct tm as [|wm mm| |]; try discriminate. inv Hf.
    cbn [to_value_type]. rewrite Forall_forall in Hok. specialize (Hok _ HIn). pose proof Hok as Hok'.
    apply cty_ok_mod in Hok'. destruct Hok' as (Hw & Hm0 & Hm1).
    assert (Hm : mm < P128).
    { pose proof (cwidth_le128 wm Hw). lia. }
    rewrite vinteger_round_trip by auto. cbn [bind]. apply bind_no_err; [|intros; apply int_or_ub_no_err].
    apply num_bytes_no_err; auto.
    + apply C3. discriminate.
    + replace (Z.to_N (0 + Z.of_nat (nmods ts))) with (N.of_nat (nmods ts)) by lia. eapply HSm. exact HIn.
Qed.

Lemma cty_no_empty : forall T p, cty_ok T = true -> denotes p T -> no_empty_tuple p = true.
Proof.
  induction T as [w|w m|w|ts IH] using cty_ind'; intros p Hok HD; apply denotes_inv in HD; cbv beta iota in HD.
  - subst. reflexivity.
  - destruct HD as (i & -> & _). reflexivity.
  - subst. reflexivity.
  - destruct HD as (ps & -> & HF). apply cty_ok_tup in Hok. destruct Hok as [Hne Hok]. cbn [no_empty_tuple].
    apply andb_true_iff. split.
    + destruct ts; [congruence|]. inversion HF; subst. reflexivity.
    + clear Hne. revert ps HF. induction ts as [|t ts IHts]; intros ps HF; inversion HF; subst; [reflexivity|].
      fcons IH IHh IHt. fcons Hok Hokh Hokt. cbn [forallb]. rewrite (IHh x) by auto. cbn. apply IHts; auto.
Qed.

Theorem create_accepts : forall F ps, documented ps ->
  Forall (fun p => (leaves (p_type p) < 2 ^ 23)%Z /\ exists T, cty_ok T = true /\ denotes (p_type p) T /\
            (is_direct T = true \/
             uniform T /\ samples_securely F (p_sec p) T /\ samples_securely F (p_sec (with_default_sec p)) T)) ps ->
  exists d, create_incremental F ps = Ok d.
Proof.
  intros F ps HD HT.
  assert (HB : forall p, In p ps ->
    (exists z, bits_needed F (p_type p) (p_sec p) = Ok z) /\
    (exists z, bits_needed F (p_type p) (p_sec (with_default_sec p)) = Ok z /\ (1 <= z)%Z)).
  { intros p Hp. rewrite Forall_forall in HT. destruct (HT p Hp) as (HL & T & Hok & HDn & HX).
    change (2 ^ 23)%Z with 8388608%Z in HL.
    assert (Hwf : type_wf (p_type p)).
    { pose proof (doc_type _ HD) as HW. rewrite Forall_forall in HW. destruct (HW p Hp) as (t & Ht & Hwf).
      rewrite (p_type_some _ _ Ht). exact Hwf. }
    pose proof (cty_no_empty _ _ Hok HDn) as Hne.
    assert (HE : forall sec, is_direct T = true \/ (uniform T /\ samples_securely F sec T) ->
      exists z, bits_needed F (p_type p) sec = Ok z /\ (1 <= z)%Z).
    { intros sec HY. destruct (bits_needed_any F (p_type p) Hwf Hne ltac:(lia) sec) as [[HS1 HS2] HP].
      assert (HNE : forall c, bits_needed F (p_type p) sec <> Err c).
      { intros c. rewrite (bits_needed_denotes F T) by auto. destruct HY as [HY|[HU HF]].
        - rewrite bits_needed_direct_int by auto. apply int_or_ub_no_err.
        - apply bits_needed_no_err; auto. }
      destruct (bits_needed F (p_type p) sec) as [z|c| |]; try congruence.
      exists z. split; auto. apply HP; auto. }
    split; [destruct (HE (p_sec p)) as (z & Hz & _); [tauto|eauto]|apply HE; tauto]. }
  unfold create_incremental, validator_create.
  rewrite (proj2 (validate_parameters_iff ps) HD). cbn [bind].
  assert (HTL : forall l needed, incl l ps -> exists r, tree_levels F (map with_default_sec l) needed = Ok r).
  { induction l as [|p l IH]; intros needed Hi; cbn [map tree_levels]; eauto.
    destruct (HB p ltac:(apply Hi; left; auto)) as (_ & z & Hz & Hpos).
    rewrite with_default_sec_type, Hz. cbn [bind]. unfold log_bits_needed. replace (z <=? 0)%Z with false by lia.
    cbn [bind]. 
    match goal with |- context [tree_levels F (map with_default_sec l) ?n] =>
      destruct (IH n ltac:(intros x Hx; apply Hi; right; auto)) as ([r t] & Hr) end.
    rewrite Hr. cbn [bind]. eauto. }
  destruct (HTL ps 0%nat (incl_refl _)) as ([h2t needed] & Hr). rewrite Hr. cbn [bind].
  assert (HM : forall l, incl l ps -> exists bl, mapM (fun p => bits <- bits_needed F (p_type p) (p_sec p) ;;
                           Ok (Z.to_nat ((bits + 127) / 128))) l = Ok bl).
  { induction l as [|p l IH]; intros Hi; cbn [mapM]; eauto.
    destruct (HB p ltac:(apply Hi; left; auto)) as ((z & Hz) & _). rewrite Hz. cbn [bind].
    destruct IH as (bl & Hbl); [intros x Hx; apply Hi; right; auto|]. rewrite Hbl. cbn [bind]. eauto. }
  destruct (HM ps (incl_refl _)) as (bl & Hbl). rewrite Hbl. cbn [bind]. eauto.
Qed.

(** * Key generation *)

Lemma validate_value_ooi : forall t v, ok_or_invalid (validate_value t v).
Proof.
  induction t as [|w|w m|w|ts IH] using ptype_ind'; intros v; cbn [validate_value]; try reflexivity.
  - destruct v; try reflexivity. apply validate_integer_value_ooi.
  - apply ooi_bind; [apply validate_integer_value_ooi|]. intros _ _. apply ooi_bind; [apply vinteger_ooi|]. intros x _.
    apply ooi_bind; [apply vinteger_ooi|]. intros y _. destruct (_ <=? _); [reflexivity|exact I].
  - destruct v; try reflexivity. apply validate_integer_value_ooi.
  - destruct v as [| | |els|]; try reflexivity.
    destruct (Nat.eqb_spec (length els) (length ts)) as [E|]; cbn [negb]; [|reflexivity].
    revert els E. induction ts as [|t ts IHts]; intros [|e els] E; cbn [validate_value_list]; try exact I; try discriminate.
    fcons IH IHh IHt. apply ooi_bind; auto.
Qed.

Lemma validate_betas_ooi : forall ps bs, ok_or_invalid (validate_betas ps bs).
Proof.
  induction ps as [|p ps IH]; intros [|b bs]; cbn [validate_betas]; try exact I.
  apply ooi_bind; [apply validate_value_ooi|]. auto.
Qed.

Section KeyGen.
Variable aes : N -> N -> N.
Variable d : dpf.
Hypothesis W : wf d.
(** Registered types with enough pseudorandom bytes. *)
Hypothesis HR : forall h p, nth_error (d_params d) h = Some p -> exists T,
  In T (d_types d) /\ p_type p = to_value_type T /\ enough_bytes T (16 * blocks d h).

Lemma compute_correction_cases : forall h sa sb alpha b inv, (h < nlevels d)%nat ->
  exists T, level_type d h T /\
    match from_value T b with
    | Ok _ => exists vs, compute_value_correction aes d h sa sb alpha b inv = Ok vs
    | _ => compute_value_correction aes d h sa sb alpha b inv = Err INVALID_ARGUMENT
    end.
Proof.
  intros h sa sb alpha b inv Hh.
  destruct (nth_error (d_params d) h) as [p|] eqn:Ep.
  2:{ apply nth_error_None in Ep. unfold nlevels in Hh. lia. }
  destruct (HR h p Ep) as (T & HT & Hpt & Hen).
  pose proof (wf_types _ W) as HTy. rewrite Forall_forall in HTy. pose proof (HTy _ HT) as Hok.
  assert (HL : level_type d h T).
  { split; auto. exists p. split; auto. rewrite Hpt. apply to_value_type_denotes. auto. }
  exists T. split; auto. unfold compute_value_correction, at_or_ub. rewrite Ep. cbn [bind].
  unfold get_value_correction_function.
  destruct (find (fun T0 => ptype_eqb (to_value_type T0) (p_type p)) (d_types d)) as [T'|] eqn:Ef.
  2:{ exfalso. pose proof (find_none _ _ Ef _ HT) as HX. cbv beta in HX. rewrite Hpt in HX.
      assert (ptype_eqb (to_value_type T) (to_value_type T) = true) by (apply ptype_eqb_eq; auto). congruence. }
  assert (T' = T).
  { apply find_some in Ef. destruct Ef as [E1 E2]. apply ptype_eqb_eq in E2.
    eapply denotes_fun with (p := p_type p).
    - rewrite <- E2. apply to_value_type_denotes. auto.
    - rewrite Hpt. apply to_value_type_denotes. auto. }
  subst T'. cbn [bind]. unfold compute_value_correction_for.
  destruct (from_value T b) as [bT|e| |] eqn:EF; cbn [bind].
  - assert (HE : prg_evaluate aes kPrgKeyValue
            (map (fun j : nat => w128 (sa + N.of_nat j)) (seq 0 (blocks d h)) ++
             map (fun j : nat => w128 (sb + N.of_nat j)) (seq 0 (blocks d h)))
            = hash_expanded_seeds aes (blocks d h) [sa; sb]).
    { unfold hash_expanded_seeds. cbn [map concat]. rewrite app_nil_r. reflexivity. }
    rewrite HE.
    destruct (block_convert aes d T h [sa; sb] 0 HL Hen ltac:(cbn; lia)) as (ea & Hea & HLa).
    destruct (block_convert aes d T h [sa; sb] 1 HL Hen ltac:(cbn; lia)) as (eb & Heb & HLb).
    rewrite Hea, Heb. cbn [bind].
    pose proof (block_index_epb aes d W h T Hh HL alpha) as Hbi.
    unfold at_or_ub. destruct (nth_error eb (domain_to_block_index d alpha h)) eqn:En.
    + cbn [bind]. eauto.
    + apply nth_error_None in En. lia.
  - f_equal. eapply from_value_err; eauto.
  - pose proof (from_value_safe T b) as [HX _]. congruence.
  - pose proof (from_value_safe T b) as [_ HX]. congruence.
Qed.

Definition betas_ok (beta : list pvalue) : Prop :=
  forall h b T, nth_error beta h = Some b -> level_type d h T -> exists v, from_value T b = Ok v.

Lemma correction_ooi : forall h sa sb alpha b inv, (h < nlevels d)%nat ->
  ok_or_invalid (compute_value_correction aes d h sa sb alpha b inv).
Proof.
  intros h sa sb alpha b inv Hh. destruct (compute_correction_cases h sa sb alpha b inv Hh) as (T & _ & HX).
  destruct (from_value T b); [destruct HX as [vs ->]; exact I| | |]; rewrite HX; reflexivity.
Qed.
Lemma correction_ok : forall beta h sa sb alpha b inv, (h < nlevels d)%nat -> betas_ok beta ->
  nth_error beta h = Some b -> exists vs, compute_value_correction aes d h sa sb alpha b inv = Ok vs.
Proof.
  intros beta h sa sb alpha b inv Hh HB Hb. destruct (compute_correction_cases h sa sb alpha b inv Hh) as (T & HL & HX).
  destruct (HB h b T Hb HL) as (v & Hv). rewrite Hv in HX. auto.
Qed.

Lemma generate_next_cases : forall i alpha beta g, length beta = nlevels d ->
  ok_or_invalid (generate_next aes d i alpha beta g) /\
  (betas_ok beta -> exists r, generate_next aes d i alpha beta g = Ok r).
Proof.
  intros i alpha beta g HL. unfold generate_next. rewrite !prg_evaluate_hash. cbn [map at_or_ub nth_error bind].
  destruct (tree_to_hierarchy d (i - 1)) as [h|] eqn:Et; [|cbn [bind]; split; [exact I|eauto]].
  apply (tree_to_hierarchy_some d W) in Et. destruct Et as [Hh _].
  destruct (nth_error beta h) as [b|] eqn:Eb.
  2:{ apply nth_error_None in Eb. lia. }
  unfold at_or_ub. rewrite Eb. cbn [bind nth_error]. split.
  - apply ooi_bind; [apply correction_ooi; auto|]. intros vs _. exact I.
  - intros HB. destruct (correction_ok beta h (g_seed0 g) (g_seed1 g) (shr128 alpha (ld_last d - ld d h)) b (g_bit1 g) Hh HB Eb) as (vs & ->).
    cbn [bind]. eauto.
Qed.

Lemma generate_loop_cases : forall n i alpha beta g, length beta = nlevels d ->
  ok_or_invalid (generate_loop aes d n i alpha beta g) /\
  (betas_ok beta -> exists r, generate_loop aes d n i alpha beta g = Ok r).
Proof.
  induction n as [|n IH]; intros i alpha beta g HL; cbn [generate_loop].
  - split; [exact I|eauto].
  - destruct (generate_next_cases i alpha beta g HL) as [H1 H2]. split.
    + apply ooi_bind; auto. intros [g1 cw] _. apply ooi_bind; [apply IH; auto|]. intros [g2 cws] _. exact I.
    + intros HB. destruct (H2 HB) as ([g1 cw] & ->). cbn [bind].
      destruct (proj2 (IH (S i) alpha beta g1 HL) HB) as ([g2 cws] & ->). cbn [bind]. eauto.
Qed.

Theorem generate_keys_ooi : forall alpha beta s0 s1, ok_or_invalid (generate_keys aes d alpha beta s0 s1).
Proof.
  intros alpha beta s0 s1. unfold generate_keys. apply ooi_bind; [apply ooi_check|].
  intros u HL. apply check_ok, Nat.eqb_eq in HL. apply ooi_bind; [apply validate_betas_ooi|]. intros _ _.
  apply ooi_bind; [apply ooi_check|]. intros _ _. apply ooi_bind; [apply generate_loop_cases; auto|].
  intros [g cws] _. pose proof (wf_pos _ W).
  unfold at_or_ub. destruct (nth_error beta (nlevels d - 1)) as [b|] eqn:Eb.
  2:{ apply nth_error_None in Eb. lia. }
  cbn [bind]. apply ooi_bind; [apply correction_ooi; lia|]. intros; exact I.
Qed.

Theorem generate_keys_ok : forall alpha beta s0 s1, length beta = nlevels d -> betas_ok beta ->
  validate_betas (d_params d) beta = Ok tt -> alpha < 2 ^ N.of_nat (ld_last d) ->
  exists k0 k1, generate_keys aes d alpha beta s0 s1 = Ok (k0, k1).
Proof.
  intros alpha beta s0 s1 HL HB HV Ha. unfold generate_keys. rewrite HL, Nat.eqb_refl, HV. cbn [check bind].
  replace (2 ^ N.of_nat (ld_last d) <=? alpha) with false by lia. rewrite andb_false_r. cbn [negb check bind].
  match goal with |- context [generate_loop aes d ?n ?i alpha beta ?g] =>
    destruct (proj2 (generate_loop_cases n i alpha beta g HL) HB) as ([g' cws] & ->) end.
  cbn [bind]. pose proof (wf_pos _ W).
  unfold at_or_ub. destruct (nth_error beta (nlevels d - 1)) as [b|] eqn:Eb.
  2:{ apply nth_error_None in Eb. lia. }
  cbn [bind].
  destruct (correction_ok beta (nlevels d - 1) (g_seed0 g') (g_seed1 g') alpha b (g_bit1 g') ltac:(lia) HB Eb) as (vs & ->).
  cbn [bind]. eauto.
Qed.

End KeyGen.
