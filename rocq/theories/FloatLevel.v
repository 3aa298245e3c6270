(** The security level of the samples in a value correction. *)
From Coq Require Import List NArith ZArith QArith Qabs Lqa Lia Bool ZifyBool ZifyNat ZifyN.
From Verif Require Import Base ListUtil ValueTypesModel ValueTypesSpec ValueTypesProofs ConvProofs BitsProofs TypeProofs
  DpfModel DpfSpec DpfWf CorrectionSpec SampleSpec FloatModel FloatSpec FloatProofs.
Import ListNotations.
Open Scope N_scope.

Lemma required_level : forall F n b m sec z, get_num_bytes_required F n b m sec = Ok z ->
  (0 < n)%Z /\ (n <= z)%Z /\ f_gt_level F sec (Z.to_N n) m = false.
Proof.
  intros F n b m sec z H. unfold get_num_bytes_required in H. bind_inv H. inv H. unfold check_parameters in Hb.
  destruct (n <=? 0)%Z eqn:E1; [discriminate|]. destruct (b <=? 0)%Z eqn:E2; [discriminate|].
  destruct (128 <? b)%Z; [discriminate|]. destruct (_ && _); [discriminate|].
  destruct (f_gt_level F sec (Z.to_N n) m) eqn:E3; [discriminate|]. split; [lia|]. split; [|reflexivity].
  assert (1 <= (b + 7) / 8)%Z by (apply Z.div_le_lower_bound; lia). nia.
Qed.
Lemma level_false : forall O q n m, f_gt_level (fops_of O) (DFin q) n m = false -> (q <= get_security_level O n m)%Q.
Proof. intros O q n m H. cbn in H. apply negb_false_iff in H. apply Qle_bool_iff. exact H. Qed.
Lemma level_true : forall O q n m, (q <= get_security_level O n m)%Q -> f_gt_level (fops_of O) (DFin q) n m = false.
Proof. intros O q n m H. cbn. apply negb_false_iff. apply Qle_bool_iff. exact H. Qed.

(** A quotient can be replaced by a smaller one. *)
Lemma at_most_trans : forall x y x' y' a e, 0 < y -> x' * y <= x * y' -> at_most_2_pow_minus x y a e -> at_most_2_pow_minus x' y' a e.
Proof.
  intros x y x' y' a e Hy HX H. unfold at_most_2_pow_minus in *.
  set (c := Npos (Qden a) * Npos (Qden e)) in *. set (s := 2 ^ (Z.to_N (Qnum a) * Npos (Qden e))) in *.
  set (t := 2 ^ (Z.to_N (Qnum e) * Npos (Qden a))) in *. clearbody s t.
  apply (N.pow_le_mono_l _ _ c) in HX. rewrite !N.pow_mul_l in HX.
  assert (HY : 0 < y ^ c) by (apply N.neq_0_lt_0, N.pow_nonzero; lia).
  set (p := x ^ c) in *. set (p' := x' ^ c) in *. set (r := y ^ c) in *. set (r' := y' ^ c) in *. clearbody p p' r r'.
  apply N.mul_le_mono_pos_r with r; [exact HY|].
  apply N.le_trans with (p * r' * s); [nia|]. nia.
Qed.
(** ... and the error may grow. *)
Lemma at_most_double : forall x y a, at_most_2_pow_minus x (2 * y) a slack -> at_most_2_pow_minus x y a (1 + slack).
Proof.
  intros x y a H. unfold at_most_2_pow_minus in *. change (Qden (1 + slack)) with (Qden slack).
  change (Z.to_N (Qnum (1 + slack))) with (Npos (Qden slack) + Z.to_N (Qnum slack)).
  rewrite N.mul_add_distr_r, N.pow_add_r. rewrite N.pow_mul_l in H. rewrite (N.mul_comm (Npos (Qden slack)) (Npos (Qden a))).
  set (c := Npos (Qden a) * Npos (Qden slack)) in *. rewrite (N.mul_comm (2 ^ c)), <- N.mul_assoc in H. exact H.
Qed.

(** ** Value types whose IntModN elements come last *)
Lemma find_app_none : forall (l l' : list cty), Forall (fun t => is_mod t = false) l -> find is_mod (l ++ l') = find is_mod l'.
Proof. induction l as [|t l IH]; intros l' H; [reflexivity|]. inversion H; subst. cbn [app find]. rewrite H2. auto. Qed.
Lemma nmods_app : forall l l', nmods (l ++ l') = (nmods l + nmods l')%nat.
Proof. induction l as [|t l IH]; intros l'; [reflexivity|]. cbn [app nmods]. rewrite IH. destruct t; cbn [is_mod]; lia. Qed.
Lemma nmods_none : forall l, Forall (fun t => is_mod t = false) l -> nmods l = 0%nat.
Proof. induction l as [|t l IH]; intros H; [reflexivity|]. inversion H; subst. cbn [nmods]. rewrite H2, IH by auto. reflexivity. Qed.
Lemma nmods_repeat : forall w m k, nmods (repeat (TMod w m) k) = k.
Proof. intros w m k. induction k as [|k IH]; [reflexivity|]. cbn [repeat nmods is_mod]. lia. Qed.
Lemma no_mod_not_mod : forall t, no_mod t = true -> is_mod t = false.
Proof. intros t H. destruct t; try reflexivity. discriminate. Qed.

Lemma needed_level : forall F T w m n sec z, cty_ok T = true -> mods_last w m n T -> bits_needed F (to_value_type T) sec = Ok z ->
  N.of_nat n < 2 ^ 31 /\ 0 < m < 2 ^ 128 /\ f_gt_level F sec (N.of_nat n) m = false.
Proof.
  intros F T w m n sec z Hok HM H. destruct HM as [|others k HF].
  - pose proof Hok as Hok'. apply cty_ok_mod in Hok'. destruct Hok' as (Hw & H0 & H1). pose proof (cwidth_le128 w Hw).
    cbn [to_value_type bits_needed] in H. rewrite vinteger_round_trip in H by lia. cbn [bind] in H. bind_inv H.
    apply required_level in Hb. change P128 with (2 ^ 128) in *. split; [lia|]. split; [lia|]. apply Hb.
  - apply cty_ok_tup in Hok. destruct Hok as [_ Hok].
    assert (Hm : cty_ok (TMod w m) = true).
    { rewrite Forall_forall in Hok. apply Hok. apply in_or_app. right. left. reflexivity. }
    pose proof Hm as Hok'. apply cty_ok_mod in Hok'. destruct Hok' as (Hw & H0 & H1). pose proof (cwidth_le128 w Hw).
    cbn [to_value_type bits_needed] in H. bind_inv H. destruct a as [[f nmod] nother]. bind_inv H. bind_inv H.
    apply bits_count_spec in Hb. destruct Hb as ([-> ->] & Hf & _). cbv beta iota in Hf.
    assert (HN : Forall (fun t => is_mod t = false) others).
    { rewrite Forall_forall in *. intros t Ht. apply no_mod_not_mod. auto. }
    rewrite find_app_none in Hf by exact HN. cbn [repeat find is_mod] in Hf. subst f. cbn [to_value_type] in Hb1.
    rewrite vinteger_round_trip in Hb1 by lia. cbn [bind] in Hb1. bind_inv Hb1.
    rewrite nmods_app, nmods_none, nmods_repeat in Hb by exact HN. apply required_level in Hb. destruct Hb as (B1 & B2 & B3).
    apply int_or_ub_inv in Hb1. replace (Z.to_N (0 + Z.of_nat (0 + S k))) with (N.of_nat (S k)) in B3 by lia.
    change P128 with (2 ^ 128) in *. split; [lia|]. split; [lia|]. exact B3.
Qed.

Lemma weighted_repeat : forall m n i, 2 * weighted_from i (repeat m n) = m * N.of_nat n * (2 * i + N.of_nat n - 1).
Proof.
  intros m n. induction n as [|n IH]; intros i; [cbn [repeat weighted_from]; lia|]. cbn [repeat weighted_from].
  rewrite N.mul_add_distr_l, IH. replace (N.of_nat (S n)) with (N.of_nat n + 1) by lia.
  destruct (N.eq_dec (N.of_nat n) 0) as [->|Hn]; [replace (2 * i + (0 + 1) - 1) with (2 * i) by lia; lia|].
  replace (2 * (i + 1) + N.of_nat n - 1) with (2 * i + N.of_nat n + 1) by lia.
  replace (2 * i + (N.of_nat n + 1) - 1) with (2 * i + N.of_nat n) by lia. lia.
Qed.
Lemma bias_cost_app : forall l l', Forall (fun t => match t with TMod _ _ => False | _ => True end) l -> bias_cost (l ++ l') = bias_cost l'.
Proof. induction l as [|t l IH]; intros l' H; [reflexivity|]. inversion H; subst. cbn [app]. destruct t; cbn [bias_cost]; auto. destruct H2. Qed.
Lemma mods_bias : forall w m n T, mods_last w m n T -> 2 * type_bias T <= m * N.of_nat n * (N.of_nat n + 1).
Proof.
  intros w m n T HM. unfold type_bias. destruct (is_direct T); [lia|]. destruct HM as [|others k HF].
  - cbn [CorrectionSpec.leaves bias_cost map leaf_modulus weighted_from]. lia.
  - cbn [CorrectionSpec.leaves]. rewrite flat_map_app, bias_cost_app.
    + assert (HR : flat_map CorrectionSpec.leaves (repeat (TMod w m) (S k)) = repeat (TMod w m) (S k)).
      { generalize (S k) as j. induction j as [|j IH]; [reflexivity|]. cbn [repeat flat_map CorrectionSpec.leaves app]. rewrite IH. reflexivity. }
      rewrite HR. change (bias_cost (repeat (TMod w m) (S k))) with (weighted_from 1 (map leaf_modulus (repeat (TMod w m) (S k)))).
      assert (HE : map leaf_modulus (repeat (TMod w m) (S k)) = repeat m (S k)).
      { generalize (S k) as j. induction j as [|j IH]; [reflexivity|]. cbn [repeat map leaf_modulus]. rewrite IH. reflexivity. }
      rewrite HE, weighted_repeat. lia.
    + induction HF as [|t others Ht HF IH]; [constructor|]. cbn [flat_map]. apply Forall_app. split; [|exact IH].
      unfold no_mod in Ht. apply Forall_forall. intros l Hl. rewrite forallb_forall in Ht. apply Ht in Hl. destruct l; auto; discriminate.
Qed.

(** ** Levels that Create accepts *)
Lemma tree_levels_needed : forall F ps needed r, tree_levels F ps needed = Ok r ->
  forall p, In p ps -> exists z, bits_needed F (p_type p) (p_sec p) = Ok z.
Proof.
  intros F ps. induction ps as [|p0 ps IH]; intros needed r H p Hp; [destruct Hp|].
  cbn [tree_levels] in H. bind_inv H. bind_inv H. bind_inv H. destruct Hp as [->|Hp]; [eauto|]. eapply IH; eauto.
Qed.
Lemma created_needed : forall F ps types d h p, created F ps types d -> nth_error ps h = Some p ->
  (dbl_is_nan (p_sec p) = false /\ dbl_lt_int (p_sec p) 0 = false /\ dbl_gt_int (p_sec p) 128 = false /\ (0 <= p_ld p <= 128)%Z) /\
  exists z, bits_needed F (p_type p) (p_sec (with_default_sec p)) = Ok z.
Proof.
  intros F ps types d h p (d0 & Hc & _ & _) Hp. unfold create_incremental in Hc. bind_inv Hc. destruct a as [[ps' needed] h2ts].
  unfold validator_create in Hb. bind_inv Hb. bind_inv Hb. destruct a.
  unfold validate_parameters in Hb0. bind_inv Hb0. destruct (validate_parameters_loop_inv _ _ Hb0 h p Hp) as (H1 & _ & _ & _ & H2 & H3 & H4).
  split; [auto|]. rewrite <- with_default_sec_type. eapply tree_levels_needed; [exact Hb1|]. apply in_map. eapply nth_error_In. exact Hp.
Qed.

(** Powers of two. *)
Lemma at_most_pow : forall a b q, (0 <= q)%Q -> (inject_Z (Z.of_N a) + q <= inject_Z (Z.of_N b))%Q -> at_most_2_pow_minus (2 ^ a) (2 ^ b) q 0.
Proof.
  intros a b [nq dq] Hq H. unfold at_most_2_pow_minus. unfold Qle in *. cbn [Qnum Qden Qplus inject_Z] in *.
  change (Z.to_N 0) with 0. rewrite !N.mul_1_r.
  rewrite <- !N.pow_mul_r, <- N.pow_add_r. apply N.pow_le_mono_r; [discriminate|]. lia.
Qed.
