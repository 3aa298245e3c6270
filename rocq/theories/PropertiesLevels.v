(** C10, continued: the tree levels of CreateIncremental are the least ones possible. *)
From Coq Require Import List NArith ZArith Lia Bool ZifyBool ZifyNat ZifyN.
From Verif Require Import Base ListUtil ValueTypesModel ValueTypesSpec ValueTypesProofs ConvProofs BitsProofs TypeProofs
  DpfModel DpfTree DpfWf DpfGen DpfEval DpfPoint DpfCtx DpfSpec DpfHist DpfReach DpfExamples
  DpfPrivacySpec DpfHide.
Import ListNotations.
Open Scope N_scope.

(** ** Specification

    [L] assigns a depth of the evaluation tree to every hierarchy level of [ps]: later
    levels are deeper, and the outputs addressed inside one leaf fit into its block. *)
Definition assignment (ps : list param) (L : nat -> nat) : Prop :=
  (forall h h', (h < h')%nat -> (h' < length ps)%nat -> (L h < L h')%nat) /\
  (forall h T, level_has ps h T -> 2 ^ (level_ld ps h - N.of_nat (L h)) <= N.of_nat (elements_per_block T)).

(** ** Lemmas *)
(** Packing, the other direction of [pack_bound]. *)
Lemma pack_needed : forall F T sec bits lb bb, cty_ok T = true ->
  bits_needed F (to_value_type T) sec = Ok bits -> log_bits_needed bits = Ok lb ->
  2 ^ bb <= N.of_nat (elements_per_block T) -> (Z.of_N bb <= 7 - Z.min lb 7)%Z.
Proof.
  intros F T sec bits lb bb Hok HB HL Hbb.
  unfold log_bits_needed in HL. destruct (bits <=? 0)%Z eqn:E0; [discriminate|]. inv HL.
  assert (H1 : 2 ^ bb <= 1 -> bb = 0).
  { intros H. destruct (N.eq_dec bb 0) as [|Hn]; auto. exfalso.
    assert (2 ^ 1 <= 2 ^ bb) by (apply N.pow_le_mono_r; lia). change (2 ^ 1) with 2 in *. lia. }
  unfold elements_per_block in Hbb. destruct (is_direct T) eqn:Hd.
  2:{ rewrite H1 by lia. lia. }
  apply bits_needed_direct in HB; auto. subst bits. rewrite total_bits_leaf in Hbb by auto.
  pose proof (leaf_bytes_pos T Hok). set (L := leaf_bytes T) in *.
  destruct (8 * N.of_nat L <=? 128) eqn:E; [|rewrite H1 by lia; lia].
  rewrite N2Nat.id in Hbb.
  assert (HM : 2 ^ bb * (8 * N.of_nat L) <= 128).
  { pose proof (N.mul_div_le 128 (8 * N.of_nat L) ltac:(lia)). nia. }
  assert (HB7 : bb <= 7).
  { destruct (N.le_gt_cases bb 7) as [|Hg]; auto. exfalso.
    assert (2 ^ 8 <= 2 ^ bb) by (apply N.pow_le_mono_r; lia). change (2 ^ 8) with 256 in *. nia. }
  enough (Z.log2_up (8 * Z.of_nat L) <= 7 - Z.of_N bb)%Z by lia.
  apply Z.log2_up_le_pow2; [lia|].
  assert (HP : (2 ^ Z.of_N bb * (8 * Z.of_nat L) <= 128)%Z).
  { apply N2Z.inj_le in HM. rewrite !N2Z.inj_mul, N2Z.inj_pow, !nat_N_Z in HM. exact HM. }
  assert (HE : (2 ^ Z.of_N bb * 2 ^ (7 - Z.of_N bb) = 128)%Z).
  { rewrite <- Z.pow_add_r by lia. replace (Z.of_N bb + (7 - Z.of_N bb))%Z with 7%Z by lia. reflexivity. }
  assert (0 < 2 ^ Z.of_N bb)%Z by (apply Z.pow_pos_nonneg; lia). nia.
Qed.

Lemma tree_levels_least : forall F ps needed h2t total (L : nat -> nat),
  tree_levels F ps needed = Ok (h2t, total) ->
  (forall h, (h < length ps)%nat -> (needed <= L h)%nat) ->
  (forall h h', (h < h')%nat -> (h' < length ps)%nat -> (L h < L h')%nat) ->
  (forall h p bits lb, nth_error ps h = Some p -> bits_needed F (p_type p) (p_sec p) = Ok bits ->
     log_bits_needed bits = Ok lb -> (p_ld p - 7 + Z.min lb 7 <= Z.of_nat (L h))%Z) ->
  forall h, (h < length ps)%nat -> (nth h h2t 0 <= L h)%nat.
Proof.
  induction ps as [|p ps IH]; intros needed h2t total L H HN HM HP h Hh; cbn [tree_levels length] in *; [lia|].
  bind_inv H. bind_inv H. bind_inv H. destruct a1 as [rest total']. inv H.
  assert (H0 : (Z.to_nat (Z.max (Z.of_nat needed) (p_ld p - 7 + Z.min a0 7)) <= L 0)%nat).
  { pose proof (HP 0%nat p _ _ eq_refl Hb Hb0). pose proof (HN 0%nat ltac:(lia)). lia. }
  destruct h as [|h]; [exact H0|]. cbn [nth].
  eapply (IH _ _ _ (fun i => L (S i))); [exact Hb1| | | |lia].
  - intros i Hi. pose proof (HM 0%nat (S i) ltac:(lia) ltac:(lia)). pose proof (HN (S i) ltac:(lia)). lia.
  - intros i j Hij Hj. apply HM; lia.
  - intros i q bits lb Hq. apply (HP (S i) q bits lb). exact Hq.
Qed.

(** ** C10: no other assignment of depths is shallower *)

(** If every level has a C++ type, the depths of CreateIncremental form an assignment, and at
    every level they are at most those of any other assignment. *)
Theorem C10_least : forall F ps types d, created F ps types d ->
  (forall h, (h < length ps)%nat -> exists T, level_has ps h T) ->
  assignment ps (fun h => nth h (d_h2t d) 0%nat) /\
  (forall L, assignment ps L -> forall h, (h < length ps)%nat -> (nth h (d_h2t d) 0 <= L h)%nat) /\
  d_levels d = S (nth (length ps - 1) (d_h2t d) 0%nat).
Proof.
  intros F ps types d HC HTy. destruct (created_wf _ _ _ _ HC) as (W & _). pose proof (created_len _ _ _ _ HC) as HL.
  split; [|split].
  - split.
    + intros h h' Hh Hh'. apply (wf_h2t_mono _ W h h'); lia.
    + intros h T HT. pose proof (level_has_lt _ _ _ HT) as Hh. rewrite (created_ld _ _ _ _ _ HC) by auto.
      pose proof (wf_epb _ W h T (level_has_type _ _ _ _ _ _ HC HT)) as HE. unfold block_bits, h2t in HE.
      replace (N.of_nat (ld d h) - N.of_nat (nth h (d_h2t d) 0%nat)) with (N.of_nat (ld d h - nth h (d_h2t d) 0)%nat) by lia.
      rewrite <- pow2_nat_N. lia.
  - intros L (HM & HP) h Hh. destruct HC as (d0 & Hc & _ & ->).
    pose proof (fold_register types d0) as HR. cbv zeta in HR. destruct HR as (_ & _ & HR3 & _). rewrite HR3. clear HR3 W HL.
    unfold create_incremental in Hc. bind_inv Hc. destruct a as [[ps' needed] h2ts]. bind_inv Hc. inv Hc. cbn [d_h2t].
    unfold validator_create in Hb. bind_inv Hb. bind_inv Hb. destruct a1 as [h2ts' needed']. inv Hb.
    eapply (tree_levels_least F (map with_default_sec ps) 0 h2ts needed L Hb2); rewrite ?map_length; auto.
    + intros; lia.
    + intros i q bits lb Hq HB HLB. rewrite nth_error_map in Hq. destruct (nth_error ps i) as [p|] eqn:Hp; inv Hq.
      assert (Hi : (i < length ps)%nat) by (apply nth_error_Some; congruence).
      destruct (HTy i Hi) as (T & HT). pose proof HT as (Hok & p' & Hp' & HD). rewrite Hp in Hp'. inv Hp'.
      rewrite with_default_sec_type in HB. rewrite (bits_needed_denotes _ T) in HB by auto.
      pose proof (pack_needed F T _ bits lb _ Hok HB HLB (HP i T HT)) as HK.
      rewrite with_default_sec_ld. unfold level_ld in HK. rewrite Hp in HK. lia.
  - rewrite (wf_levels _ W). unfold h2t. rewrite HL. reflexivity.
Qed.
Print Assumptions C10_least.

(** The keys that key generation returns have one correction word for each depth below the
    last, with the values of one block at the depths of the earlier levels and none elsewhere. *)
Theorem C10_keys : forall aes F ps types d alpha beta s0 s1 k0 k1 key, created F ps types d -> alpha < 2 ^ 128 ->
  generate_keys aes d alpha beta s0 s1 = Ok (k0, k1) -> key = k0 \/ key = k1 ->
  length (k_cws key) = nth (length ps - 1) (d_h2t d) 0%nat /\
  (exists T, level_has ps (length ps - 1) T /\ length (k_last key) = elements_per_block T) /\
  forall t cw, nth_error (k_cws key) t = Some cw ->
    (exists h T, (h < length ps - 1)%nat /\ nth h (d_h2t d) 0%nat = t /\ level_has ps h T /\
       length (cw_values cw) = elements_per_block T) \/
    ((forall h, (h < length ps)%nat -> nth h (d_h2t d) 0%nat <> t) /\ cw_values cw = []).
Proof.
  intros aes F ps types d alpha beta s0 s1 k0 k1 key HC Ha HG Hk.
  destruct (created_wf _ _ _ _ HC) as (W & _). pose proof (created_len _ _ _ _ HC) as HL.
  assert (HS : exists party, key_shape ps d party key).
  { destruct Hk as [->| ->].
    - exists (party_of false). exact (generated_shape F ps types d HC aes alpha beta s0 s1 (k0, k1) false Ha HG).
    - exists (party_of true). exact (generated_shape F ps types d HC aes alpha beta s0 s1 (k0, k1) true Ha HG). }
  destruct HS as (party & HS).
  pose proof (ks_cws _ _ _ _ HS) as HCw. rewrite (wf_levels _ W) in HCw. unfold h2t in HCw. rewrite HL in HCw.
  split; [lia|]. split.
  - destruct (ks_last _ _ _ _ HS) as (T & HT & es & He & _ & ->). exists T. rewrite map_length. auto.
  - intros t cw Ht. destruct (in_dec Nat.eq_dec t (d_h2t d)) as [Hi|Hi].
    + left. apply (In_nth _ _ 0%nat) in Hi. destruct Hi as (h & Hh & Hth). rewrite (wf_len _ W), HL in Hh.
      assert (Hlt : (t < length (k_cws key))%nat) by (apply nth_error_Some; congruence).
      assert (Hh' : (h < length ps - 1)%nat) by (destruct (Nat.eq_dec h (length ps - 1)) as [->|]; lia).
      subst t. destruct (ks_level _ _ _ _ HS h cw ltac:(lia) Ht) as (T & HT & es & He & _ & Hv).
      exists h, T. rewrite Hv, map_length. auto.
    + right. split; [|exact (ks_none _ _ _ _ HS t cw Ht Hi)]. intros h Hh E. apply Hi. rewrite <- E.
      apply nth_In. rewrite (wf_len _ W), HL. exact Hh.
Qed.
Print Assumptions C10_keys.

(** Three levels (bytes, a tuple and uint64_t): the first fits into the block of the root. *)
Example C10_least_nonvacuous :
  created ex_F ex_ps ex_types ex_d /\ d_h2t ex_d = [0; 6; 8]%nat /\
  (forall h, (h < length ex_ps)%nat -> exists T, level_has ex_ps h T) /\
  assignment ex_ps (fun h => nth h [0; 6; 8]%nat 0%nat).
Proof.
  assert (HT : forall h, (h < length ex_ps)%nat -> exists T, level_has ex_ps h T).
  { intros [|[|[|h]]] Hh; [exists (TInt 8); apply ex_level_0|exists ex_tuple; apply ex_level_1|exists (TInt 64); apply ex_level_2|].
    cbn in Hh. lia. }
  split; [apply ex_created|]. split; [vm_compute; reflexivity|]. split; [exact HT|].
  exact (proj1 (C10_least _ _ _ _ ex_created HT)).
Qed.
Example C10_keys_nonvacuous :
  created ex_F ex_ps ex_types ex_d /\ length (k_cws ex_k0) = 8%nat /\
  map (fun cw => length (cw_values cw)) (k_cws ex_k0) = [16; 0; 0; 0; 0; 0; 1; 0]%nat /\
  length (k_last ex_k0) = 2%nat /\
  exists s0 s1, generate_keys ex_aes ex_d ex_alpha ex_beta s0 s1 = Ok (ex_k0, ex_k1) /\ ex_alpha < 2 ^ 128.
Proof.
  split; [apply ex_created|]. split; [vm_compute; reflexivity|]. split; [vm_compute; reflexivity|]. split; [vm_compute; reflexivity|].
  eexists. eexists. split; [apply ex_generated|vm_compute; reflexivity].
Qed.
