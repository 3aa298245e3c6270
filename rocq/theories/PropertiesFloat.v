(** C80 and C81: computations with doubles. *)
From Coq Require Import List NArith ZArith QArith Qabs Lqa Lia Bool ZifyBool ZifyNat ZifyN.
From Verif Require Import Base ListUtil ValueTypesModel ValueTypesSpec ValueTypesProofs ConvProofs TypeProofs
  SampleSpec SampleProofs SampleJoint DpfModel DpfSpec DpfWf DpfCreate CorrectionSpec PirProtoSpec
  FloatModel FloatSpec FloatProofs FloatLevel PropertiesValueTypes.
Import ListNotations.
Open Scope N_scope.

(** * C80 *)

(** GetNumBytesRequired accepts a security parameter only if the bound m * n * (n + 1) / 2^131 is at most
    2^-security_parameter, and always if it is at most 2^-(security_parameter + slack): the rounding errors of
    GetSecurityLevel are smaller than 2^-40 bits. *)
Theorem C80_level : forall O, accurate O -> forall n w m q, (0 < n < 2147483648)%Z -> cty_ok (TMod w m) = true -> (0 <= q)%Q ->
  let bound := m * Z.to_N n * (Z.to_N n + 1) in
  let accepts := is_ok (get_num_bytes_required (fops_of O) n (Z.of_N w) m (DFin q)) in
  (accepts = true -> at_most_2_pow_minus bound (2 ^ 131) q slack) /\
  (at_most_2_pow_minus bound (2 ^ 131) (q + slack) 0 -> accepts = true).
Proof.
  intros O HO n w m q Hn Hok Hq bound accepts.
  pose proof Hok as Hok'. apply cty_ok_mod in Hok'. destruct Hok' as (Hw & H0 & H1). pose proof (cwidth_le128 w Hw) as H2.
  change P128 with (2 ^ 128) in H2. split.
  - unfold accepts. intros HA. destruct (get_num_bytes_required _ _ _ _ _) as [z|c| |] eqn:E; try discriminate.
    apply required_level in E. apply (level_sound O HO); [lia|lia|lia|exact Hq|]. apply level_false. apply E.
  - intros HB. apply (level_complete O HO) in HB; [|lia|lia|lia|exact Hq]. apply level_true in HB.
    unfold accepts, get_num_bytes_required, check_parameters. rewrite HB.
    replace (n <=? 0)%Z with false by lia.
    assert (HW : w <= 128 /\ 0 < w). { clear - Hw. unfold cwidth_ok in Hw. widths Hw; lia. }
    replace (Z.of_N w <=? 0)%Z with false by lia. replace (128 <? Z.of_N w)%Z with false by lia. rewrite N2Z.id.
    replace (2 ^ w <? m) with false by lia. rewrite andb_false_r. reflexivity.
Qed.
Print Assumptions C80_level.

(** The samples themselves: if GetNumBytesRequired accepts, the statistical distance of the joint distribution of
    [n = k + 1] samples from the uniform one is at most 2^-security_parameter (up to the slack). *)
Theorem C80_distance : forall O, accurate O -> forall w m, cty_ok (TMod w m) = true ->
  exists f,
    (forall sec k r xs rest, w < 128 \/ k = 0%nat ->
       r < 2 ^ 128 -> length xs = k -> Forall (fun x => x < 2 ^ w) xs ->
       f_gt_level (fops_of O) sec (N.of_nat (S k)) m = false ->
       sample_from_bytes (fops_of O) w m (le_encode 16 r ++ flat_map (le_encode (nbytes w)) xs ++ rest) sec (S k)
       = Ok (f r xs)) /\
    forall k q, N.of_nat (S k) < 2147483648 -> (0 <= q)%Q ->
      is_ok (get_num_bytes_required (fops_of O) (Z.of_nat (S k)) (Z.of_N w) m (DFin q)) = true ->
      at_most_2_pow_minus (tv_joint f (2 ^ 128) (2 ^ w) m k) (2 * m ^ N.of_nat (S k) * 2 ^ 128 * (2 ^ w) ^ N.of_nat k) q slack.
Proof.
  intros O HO w m Hok. destruct C18_sampling_partial as [_ HS]. destruct (HS w m Hok) as (f & F1 & _ & _ & F4).
  exists f. split; [intros sec k r xs rest; apply F1|]. intros k q Hk Hq HA.
  pose proof (proj1 (C80_level O HO (Z.of_nat (S k)) w m q ltac:(lia) Hok Hq) HA) as HB.
  eapply at_most_trans; [| |exact HB]; [reflexivity|]. rewrite N.mul_comm.
  replace (Z.to_N (Z.of_nat (S k))) with (N.of_nat (S k)) by lia. apply F4.
Qed.
Print Assumptions C80_distance.

(** Keys: if Create accepts a level whose IntModN elements come last, the advantage type_bias / 2^129 of telling
    two values of beta apart by that level's value correction (C78, C79) is at most 2^-security_parameter, up to
    a factor of two and the slack. *)
Theorem C80_key : forall O, accurate O -> forall ps types d, created (fops_of O) ps types d ->
  forall h T w m n p, level_has ps h T -> mods_last w m n T -> nth_error ps h = Some p ->
  exists q, security_of p q /\ (0 <= q)%Q /\ at_most_2_pow_minus (type_bias T) (2 ^ 129) q (1 + slack).
Proof.
  intros O HO ps types d HC h T w m n p (Hok & p' & Hp' & HD) HM Hp. assert (p' = p) by congruence. subst p'.
  destruct (created_needed _ _ _ _ _ _ HC Hp) as ((N1 & N2 & N3 & N4) & z & Hz).
  rewrite (bits_needed_denotes _ T) in Hz by auto.
  destruct (needed_level _ _ _ _ _ _ _ Hok HM Hz) as (L1 & L2 & L3).
  assert (HQ : exists q, security_of p q /\ p_sec (with_default_sec p) = DFin q /\ (0 <= q)%Q).
  { unfold security_of, with_default_sec. destruct (p_sec p) as [|b|s] eqn:Es; cbn in N1, N2, N3.
    - discriminate.
    - destruct b; discriminate.
    - exists (if Qeq_bool s 0 then inject_Z (40 + p_ld p) else s). split; [exists s; auto|]. cbn [dbl_is_zero].
      destruct (Qeq_bool s 0) eqn:Ez; cbn [p_sec]; (split; [auto|]).
      + unfold Qle. cbn. lia.
      + apply negb_false_iff in N2. apply Qle_bool_iff in N2. exact N2. }
  destruct HQ as (q & Q1 & Q2 & Q3). exists q. split; [exact Q1|]. split; [exact Q3|].
  rewrite Q2 in L3. apply level_false in L3. pose proof (mods_bias _ _ _ _ HM) as HB.
  assert (Hn : (0 < n)%nat) by (destruct HM; lia).
  apply (level_sound O HO) in L3; [|lia|lia|lia|exact Q3].
  apply at_most_double. eapply at_most_trans; [| |exact L3]; [reflexivity|].
  change (2 * 2 ^ 129) with (2 ^ 130). change (2 ^ 131) with (2 * 2 ^ 130). generalize (2 ^ 130) as M. intros M. nia.
Qed.
Print Assumptions C80_key.

(** * C81 *)

(** ceil(log2(n)) computed with doubles is exact up to 2^46, more than any 32-bit number of bits or elements needs; for larger
    numbers it is one of the neighbouring integers.  So the domain has room for the elements and is less than twice as
    large, and the number of bits of a value type is rounded up to the next power of two. *)
Theorem C81_ceil_log2 : forall O, accurate O -> forall n,
  ((0 < n < 2 ^ 127)%Z -> clog_ok (ceil_log2 O) n) /\
  ((0 < n <= 2 ^ 46)%Z -> (0 <= ceil_log2 O n)%Z /\ (n <= 2 ^ ceil_log2 O n < 2 * n)%Z).
Proof.
  intros O HO n. split; [apply (ceil_between O HO)|]. intros Hn. rewrite (ceil_exact O HO) by exact Hn.
  split; [apply Z.log2_up_nonneg|].
  destruct (Z.eq_dec n 1) as [->|H1]; [cbn; lia|].
  pose proof (Z.log2_up_spec n ltac:(lia)) as [HA HB]. split; [exact HB|].
  assert (HP : (2 ^ Z.log2_up n = 2 * 2 ^ Z.pred (Z.log2_up n))%Z).
  { rewrite <- Z.pow_succ_r by (pose proof (Z.log2_up_pos n ltac:(lia)); lia). f_equal. lia. }
  lia.
Qed.
Print Assumptions C81_ceil_log2.
(** The logarithm of ProtoValidator::Create, which the model of the tree computes exactly. *)
Theorem C81_tree_levels : forall O, accurate O -> forall bits, (bits < 2147483648)%Z ->
  log_bits_needed bits = if (bits <=? 0)%Z then UB else Ok (ceil_log2 O bits).
Proof.
  intros O HO bits Hb. unfold log_bits_needed. destruct (bits <=? 0)%Z eqn:E; [reflexivity|].
  rewrite (ceil_exact O HO) by lia. reflexivity.
Qed.
Print Assumptions C81_tree_levels.

(** * The hypotheses can be met *)

(** A 32-bit integer and two IntModN elements, with the default security parameter 45. *)
Definition xfl_T : cty := TTup [TInt 32; TMod 64 1000003; TMod 64 1000003].
Definition xfl_ps : list param := [ {| p_ld := 5; p_vt := Some (to_value_type xfl_T); p_sec := DFin 0 |} ].
Lemma xfl_level : forall n q, n < 2 ^ 10 -> 0 < n -> (0 <= q <= 90)%Q -> f_gt_level (fops_of fine_ops) (DFin q) n 1000003 = false.
Proof.
  intros n q Hn H0 Hq. apply level_true. apply (level_complete fine_ops fine_accurate); [exact H0|lia|lia|apply Hq|].
  eapply at_most_trans; [| |apply (at_most_pow 40 131)]; [reflexivity| |ulps; lra|change (inject_Z (Z.of_N 40)) with 40%Q; change (inject_Z (Z.of_N 131)) with 131%Q; ulps; lra].
  apply N.mul_le_mono_r. change (2 ^ 40) with 1099511627776. nia.
Qed.
Lemma xfl_uniform : uniform xfl_T.
Proof.
  constructor; [repeat constructor|]. intros w m w' m' H H'.
  cbn in H, H'. destruct H as [H|[H|[H|[]]]], H' as [H'|[H'|[H'|[]]]]; try discriminate; inversion H; inversion H'; subst; auto.
Qed.
Lemma xfl_secure : forall q, (0 <= q <= 45)%Q -> samples_securely (fops_of fine_ops) (DFin q) xfl_T.
Proof.
  intros q Hq. constructor.
  - intros t Ht. change (N.of_nat _) with 1. cbn [f_add_log2 fops_of].
    assert (HA : (o_add fine_ops q (log2_of fine_ops 1) == q)%Q).
    { cbn [fine_ops o_add log2_of o_log2 o_of_int]. unfold log2_of. cbn [fine_ops o_log2 o_of_int]. rewrite N.pow_1_l. change (Z.of_N (N.log2 1)) with 0%Z.
      unfold Qeq. cbn [Qnum Qden Qplus]. rewrite Pos2Z.inj_mul. ring. }
    cbn in Ht. destruct Ht as [<-|[<-|[<-|[]]]]; constructor; apply xfl_level; try reflexivity; rewrite HA; lra.
  - intros w m Hin. change (N.of_nat _) with 2. cbn in Hin. destruct Hin as [H|[H|[H|[]]]]; inversion H; subst; apply xfl_level; try reflexivity; lra.
Qed.
Example C80_nonvacuous :
  accurate fine_ops /\ (exists d, created (fops_of fine_ops) xfl_ps [xfl_T] d) /\
  level_has xfl_ps 0 xfl_T /\ mods_last 64 1000003 2 xfl_T /\ type_bias xfl_T = 3 * 1000003 /\
  is_ok (get_num_bytes_required (fops_of fine_ops) 1 64 1000003 (DFin 90)) = true /\
  is_ok (get_num_bytes_required (fops_of fine_ops) 1 64 1000003 (DFin 112)) = false.
Proof.
  split; [exact fine_accurate|]. split; [|split; [|split; [|split; [reflexivity|split]]]].
  - assert (HC : exists d0, create_incremental (fops_of fine_ops) xfl_ps = Ok d0).
    { apply create_accepts.
      - apply validate_parameters_iff. reflexivity.
      - constructor; [|constructor]. split; [reflexivity|]. exists xfl_T. split; [reflexivity|].
        split; [apply (to_value_type_denotes xfl_T); reflexivity|]. right. split.
        { exact xfl_uniform. }
        split; apply xfl_secure; split; discriminate. }
    destruct HC as (d0 & HC). exists (fold_right register_value_type d0 [xfl_T]). exists d0. split; [exact HC|]. split; [repeat constructor|reflexivity].
  - split; [reflexivity|]. eexists. split; [reflexivity|]. apply (to_value_type_denotes xfl_T). reflexivity.
  - apply (ml_tup 64 1000003 [TInt 32] 1). repeat constructor.
  - unfold get_num_bytes_required, check_parameters. rewrite xfl_level; [reflexivity|reflexivity|reflexivity|split; discriminate].
  - destruct (is_ok (get_num_bytes_required (fops_of fine_ops) 1 64 1000003 (DFin 112))) eqn:E; [|reflexivity].
    pose proof (C80_level fine_ops fine_accurate 1 64 1000003 112 ltac:(lia) eq_refl ltac:(discriminate)) as [HA _]. cbv zeta in HA.
    change (Z.of_N 64) with 64%Z in HA. specialize (HA E). exfalso. clear E.
    unfold at_most_2_pow_minus in HA. change (Qden 112) with 1%positive in HA. change (Qden slack) with (2 ^ 40)%positive in HA.
    change (1000003 * Z.to_N 1 * (Z.to_N 1 + 1)) with 2000006 in HA. change (Z.to_N (Qnum 112)) with 112 in HA. change (Z.to_N (Qnum slack)) with 1 in HA.
    rewrite !N.mul_1_l in HA. set (c := Npos (2 ^ 40)) in HA. assert (Hc : 1 < c) by reflexivity. clearbody c.
    assert (HB : (2 ^ 20) ^ c <= 2000006 ^ c) by (apply N.pow_le_mono_l; discriminate).
    rewrite <- N.pow_mul_r in HB. rewrite <- (N.pow_mul_r 2 131), <- (N.pow_add_r 2 (131 * c)) in HA.
    assert (HC : 2 ^ (20 * c) * 2 ^ (112 * c) <= 2 ^ (131 * c + 1)).
    { eapply N.le_trans; [apply N.mul_le_mono_r; exact HB|exact HA]. }
    rewrite <- N.pow_add_r in HC. apply exp_le_root in HC. clear HA HB. lia.
Qed.
Example C81_nonvacuous : ceil_log2 fine_ops 1000 = 10%Z /\ ceil_log2 fine_ops 1024 = 10%Z /\ ceil_log2 fine_ops 1025 = 11%Z.
Proof. rewrite !(ceil_exact fine_ops fine_accurate) by lia. auto. Qed.
