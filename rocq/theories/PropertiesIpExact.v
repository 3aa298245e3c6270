(** C30 for selection vectors of every size. *)
From Coq Require Import List NArith ZArith QArith Lia Bool ZifyBool ZifyNat ZifyN.
From Verif Require Import Base ListUtil PirDbModel PirSpec PirDbProofs PirIpProofs PirDenseProofs PropertiesPir.
Import ListNotations.
Ltac Zify.zify_post_hook ::= Z.div_mod_to_equations.
Open Scope N_scope.

(** ** Specification *)

(** Bit [i] of a selection vector, [false] beyond its end. *)
Definition bit_at (blocks : list N) (i : N) : bool := N.testbit (nth (N.to_nat (i / 128)) blocks 0) (i mod 128).
(** The record numbers wrap around at 2^32 bits: record [idx] is added once for each of the bits
    idx, idx + 2^32, idx + 2 * 2^32, ... that is set. *)
Definition wrapped_selected (blocks : list N) (idx : nat) : bool :=
  fold_right xorb false (map (fun k => bit_at blocks (N.of_nat idx + N.of_nat k * 2 ^ 32)) (seq 0 (length blocks))).
Definition wrapped_xor (records : list bytes) (size : nat) (blocks : list N) : bytes :=
  map (fun p => xor_all (map (fun idx => if wrapped_selected blocks idx then nth p (nth idx records []) 0 else 0)
                             (seq 0 (length records))))
      (seq 0 size).

(** ** Proof *)

Lemma xor_all_swap : forall (f : nat -> nat -> N) lb la,
  xor_all (map (fun a => xor_all (map (f a) lb)) la) = xor_all (map (fun b => xor_all (map (fun a => f a b) la)) lb).
Proof.
  intros f lb. induction la as [|a la IH]; cbn [map].
  - symmetry. apply xor_all_zero. reflexivity.
  - rewrite xor_all_cons, IH. rewrite <- xor_all_lxor. reflexivity.
Qed.
Lemma xor_all_if : forall (s : nat -> bool) v l,
  xor_all (map (fun k => if s k then v else 0) l) = if fold_right xorb false (map s l) then v else 0.
Proof.
  intros s v. induction l as [|k l IH]; [reflexivity|]. cbn [map fold_right]. rewrite xor_all_cons, IH.
  destruct (s k), (fold_right xorb false (map s l)); cbn [xorb]; rewrite ?N.lxor_nilpotent, ?N.lxor_0_l, ?N.lxor_0_r; reflexivity.
Qed.
Lemma bit_at_beyond : forall s i, N.of_nat (length s) * 128 <= i -> bit_at s i = false.
Proof.
  intros s i H. unfold bit_at. rewrite nth_overflow; [apply N.bits_0|].
  assert (N.of_nat (length s) <= i / 128) by (apply N.div_le_lower_bound; lia). lia.
Qed.

(** What bit [b] adds to byte [p]. *)
Definition term (recs : list bytes) (s : list N) (p b : nat) : N :=
  if bit_at s (N.of_nat b) then nth p (nth (N.to_nat (N.of_nat b mod 2 ^ 32)) recs []) 0 else 0.
Lemma nth_nil : forall p, nth p (@nil N) 0 = 0.
Proof. intros [|p]; reflexivity. Qed.
Lemma hwy_contrib_terms : forall recs s p i, (Z.of_nat (length recs) < 2147483648)%Z ->
  hwy_contrib recs s p i = xor_all (map (fun j => term recs s p (i * 128 + j)) (seq 0 128)).
Proof.
  intros recs s p i HL. unfold hwy_contrib. cbv zeta.
  assert (Hb : forall j, (j < 128)%nat -> bit_at s (N.of_nat (i * 128 + j)) = bit_of i j s).
  { intros j Hj. unfold bit_at, bit_of. replace (N.of_nat (i * 128 + j) / 128) with (N.of_nat i) by lia.
    replace (N.of_nat (i * 128 + j) mod 128) with (N.of_nat j) by lia. rewrite Nat2N.id. reflexivity. }
  change (2 ^ 32) with 4294967296 in *.
  destruct (Z.ltb_spec (to_int32 (Z.of_nat i * 128)) 0) as [Hn|Hn].
  - symmetry. apply xor_all_zero. intros j Hj. apply in_seq in Hj. unfold term. change (2 ^ 32) with 4294967296.
    rewrite (nth_overflow recs), nth_nil; [destruct (bit_at _ _); reflexivity|].
    unfold to_int32 in Hn. clear Hb. lia.
  - unfold contrib. f_equal. apply map_ext_in. intros j Hj. apply in_seq in Hj. unfold term. change (2 ^ 32) with 4294967296.
    rewrite Hb by lia. destruct (bit_of i j s); [|reflexivity]. f_equal. f_equal. unfold to_int32 in *. clear Hb. lia.
Qed.

Lemma wrapped_terms : forall recs s p, (Z.of_nat (length recs) < 2147483648)%Z ->
  xor_all (map (hwy_contrib recs s p) (seq 0 (length s)))
  = xor_all (map (fun idx => if wrapped_selected s idx then nth p (nth idx recs []) 0 else 0) (seq 0 (length recs))).
Proof.
  intros recs s p HL. assert (HM : exists M, N.of_nat M = 2 ^ 32) by (exists (N.to_nat (2 ^ 32)); apply N2Nat.id). destruct HM as [M HM].
  rewrite (map_ext _ _ (fun i => hwy_contrib_terms recs s p i HL)).
  rewrite <- (xor_all_blocks (term recs s p) 128 (length s)).
  assert (HM' : N.of_nat M = 4294967296) by exact HM.
  rewrite <- (xor_all_prefix (term recs s p) (length s * 128) (length s * M)).
  2:{ apply Nat.mul_le_mono_l. lia. }
  2:{ intros b Hb. unfold term. rewrite bit_at_beyond by lia. reflexivity. }
  rewrite xor_all_blocks.
  transitivity (xor_all (map (fun k => xor_all (map (fun x => if bit_at s (N.of_nat x + N.of_nat k * 2 ^ 32) then nth p (nth x recs []) 0 else 0) (seq 0 (length recs)))) (seq 0 (length s)))).
  - f_equal. apply map_ext. intros k.
    rewrite (xor_all_prefix _ (length recs) M).
    + f_equal. apply map_ext_in. intros x Hx. apply in_seq in Hx. unfold term.
      replace (N.of_nat (k * M + x)) with (N.of_nat x + N.of_nat k * 2 ^ 32) by (rewrite Nat2N.inj_add, Nat2N.inj_mul, HM; lia).
      rewrite N.mod_add by discriminate. rewrite N.mod_small by (change (2 ^ 32) with 4294967296; lia). rewrite Nat2N.id. reflexivity.
    + lia.
    + intros x Hx. unfold term.
      replace (N.of_nat (k * M + x)) with (N.of_nat x + N.of_nat k * 2 ^ 32) by (rewrite Nat2N.inj_add, Nat2N.inj_mul, HM; lia).
      rewrite N.mod_add by discriminate. rewrite N.mod_small by (change (2 ^ 32) with 4294967296; lia). rewrite Nat2N.id.
      rewrite (nth_overflow recs), nth_nil by lia. destruct (bit_at _ _); reflexivity.
  - rewrite xor_all_swap. f_equal. apply map_ext. intros x. rewrite xor_all_if. reflexivity.
Qed.

Lemma ip_too_long : forall t values selections nb max, selections <> [] -> Forall (fun s => length s = nb) selections ->
  (2147483648 <= Z.of_nat nb < 2 ^ 63)%Z -> inner_product t values selections max = Err INVALID_ARGUMENT.
Proof.
  intros t values selections nb max Hne Hnb Hbig. unfold inner_product.
  destruct selections as [|s0 rest]; [congruence|]. inversion Hnb as [|? ? Hs0 _]. subst. cbv zeta. cbn [iterM].
  destruct (Z.ltb_spec (Z.of_nat (length s0) * 128) (Z.of_nat (length values))); cbn [negb check bind]; [reflexivity|].
  destruct (Z.eqb_spec (Z.of_nat (length s0)) (to_int32 (Z.of_nat (length s0)) mod 18446744073709551616)) as [E|E]; cbn [check bind]; [|reflexivity].
  exfalso. clear - E Hbig. change (2 ^ 63)%Z with 9223372036854775808%Z in Hbig. unfold to_int32 in E. lia.
Qed.

(** ** C30: the outcome for selection vectors of every size *)
Theorem C30_exact : forall t values selections nb max,
  target_ok t -> selections <> [] ->
  Forall (fun s => length s = nb) selections -> (length values <= nb * 128)%nat -> (Z.of_nat nb < 2 ^ 63)%Z ->
  (Z.of_nat (length values) < 2147483648)%Z -> (0 < max)%Z ->
  Forall (fun v => is_bytes (v_data v) /\ (Z.of_nat (length (v_data v)) <= max)%Z /\
                   (Z.of_nat (length (v_data v)) < 2147483648)%Z) values ->
  inner_product t values selections max
  = if (2147483648 <=? Z.of_nat nb)%Z then Err INVALID_ARGUMENT
    else if (t_scalar t || Nat.ltb (t_log_lanes t) 4) && (16777216 <? Z.of_nat nb)%Z then UB
    else Ok (map (wrapped_xor (map v_data values) (Z.to_nat max)) selections).
Proof.
  intros t values selections nb max HT Hne Hnb Hcov Hnb63 Hlen Hmax Hvals.
  assert (Hvals' : Forall (fun v => (Z.of_nat (length (v_data v)) <= max)%Z /\ is_bytes (v_data v) /\ N.of_nat (length (v_data v)) < 2 ^ 31) values).
  { eapply Forall_impl; [|exact Hvals]. cbv beta. intros v (H1 & H2 & H3). change (2 ^ 31) with 2147483648. repeat split; auto. lia. }
  destruct (Z.leb_spec 2147483648 (Z.of_nat nb)) as [Hbig|Hsmall].
  - apply (ip_too_long t values selections nb max); auto.
  - destruct ((t_scalar t || Nat.ltb (t_log_lanes t) 4) && (16777216 <? Z.of_nat nb)%Z) eqn:EU.
    + rewrite (inner_product_reduces t values selections nb max) by auto.
      apply andb_true_iff in EU. destruct EU as [ES EB]. apply Z.ltb_lt in EB.
      unfold inner_product_hwy.
      assert (t_scalar t || (2 ^ N.of_nat (t_log_lanes t) <? 16) = true) as ->.
      { destruct (t_scalar t); [reflexivity|]. cbn [orb] in ES |- *. apply Nat.ltb_lt in ES. apply N.ltb_lt.
        change 16 with (2 ^ 4). apply N.pow_lt_mono_r; lia. }
      cbn [orb]. apply (no_hwy_overflow t values selections nb); auto.
      eapply Forall_impl; [|exact Hvals']. cbv beta. intros v (H1 & H2 & H3). repeat split; auto. lia.
    + rewrite (ip_general t values selections nb max); auto.
      * f_equal. apply map_ext_in. intros s Hs. rewrite Forall_forall in Hnb. rewrite <- (Hnb s Hs).
        unfold wrapped_xor. apply map_ext. intros p. apply wrapped_terms. rewrite map_length. exact Hlen.
      * apply andb_false_iff in EU. destruct EU as [EU|EU].
        -- left. apply orb_false_iff in EU. destruct EU as [E1 E2]. split; [exact E1|]. apply Nat.ltb_ge in E2. exact E2.
        -- right. lia.
Qed.
Print Assumptions C30_exact.

(** With at most 2^25 blocks no bit wraps around. *)
Lemma wrapped_small : forall records size blocks, (Z.of_nat (length records) < 2147483648)%Z -> (Z.of_nat (length blocks) <= 33554432)%Z ->
  wrapped_xor records size blocks = selected_xor records size blocks.
Proof.
  intros records size blocks HR HB. unfold wrapped_xor, selected_xor. apply map_ext. intros p. f_equal.
  apply map_ext_in. intros idx Hidx. apply in_seq in Hidx.
  assert (wrapped_selected blocks idx = selected blocks idx) as ->; [|reflexivity].
  unfold wrapped_selected, selected. destruct blocks as [|b blocks].
  - cbn [length seq map fold_right]. destruct (Nat.div idx 128); cbn [nth]; rewrite N.bits_0; reflexivity.
  - set (l := b :: blocks) in *. replace (seq 0 (length l)) with (0%nat :: seq 1 (length blocks)) by reflexivity.
    cbn [map fold_right]. rewrite N.mul_0_l, N.add_0_r.
    assert (HZ : forall n st, (1 <= st)%nat -> fold_right xorb false (map (fun k => bit_at l (N.of_nat idx + N.of_nat k * 2 ^ 32)) (seq st n)) = false).
    { induction n as [|n IH]; intros st Hst; [reflexivity|]. cbn [seq map fold_right]. rewrite IH by lia.
      rewrite bit_at_beyond; [reflexivity|]. change (2 ^ 32) with 4294967296. lia. }
    rewrite HZ, xorb_false_r by lia. unfold bit_at. f_equal; [f_equal; lia|lia].
Qed.

(** One record and 2^25 + 1 blocks, of which only the last is not zero: bit 2^32 selects the record,
    although there is no record 2^32. *)
Example C30_exact_nonvacuous : exists blocks, Z.of_nat (length blocks) = 33554433%Z /\ wrapped_xor [[7]] 1 blocks = [7] /\ selected_xor [[7]] 1 blocks = [0].
Proof.
  assert (HM : exists m, Z.of_nat m = 33554432%Z) by (exists (Z.to_nat 33554432); apply Z2Nat.id; discriminate).
  destruct HM as (m & HM). set (s := repeat 0 m ++ [1]).
  assert (Ls : length s = S m) by (unfold s; rewrite app_length, repeat_length; cbn [length]; lia).
  assert (Hs : forall i, nth i s 0 = if Nat.eqb i m then 1 else 0).
  { intros i. unfold s. destruct (Nat.eqb_spec i m) as [->|Hi].
    - rewrite app_nth2 by (rewrite repeat_length; lia). rewrite repeat_length, Nat.sub_diag. reflexivity.
    - destruct (Nat.lt_ge_cases i m).
      + rewrite app_nth1 by (rewrite repeat_length; assumption). apply nth_zeros.
      + rewrite nth_overflow; [reflexivity|]. rewrite app_length, repeat_length. cbn [length]. lia. }
  exists s. split; [lia|]. assert (H0 : nth 0 s 0 = 0) by (rewrite Hs; destruct (Nat.eqb_spec 0 m); [lia|reflexivity]).
  split.
  - unfold wrapped_xor. cbn [seq map length nth]. replace (wrapped_selected s 0) with true; [reflexivity|].
    unfold wrapped_selected. assert (Hm : exists m', m = S m') by (destruct m as [|m']; [lia|eauto]). destruct Hm as [m' Em].
    assert (HS : seq 0 (length s) = 0%nat :: 1%nat :: seq 2 m') by (rewrite Ls, Em; reflexivity). rewrite HS. cbn [map fold_right].
    assert (HZ : forall n st, (2 <= st)%nat -> fold_right xorb false (map (fun k => bit_at s (N.of_nat 0 + N.of_nat k * 2 ^ 32)) (seq st n)) = false).
    { induction n as [|n IH]; intros st Hst; [reflexivity|]. cbn [seq map fold_right]. rewrite IH by lia.
      rewrite bit_at_beyond; [reflexivity|]. change (2 ^ 32) with 4294967296. lia. }
    rewrite HZ by lia. unfold bit_at.
    change ((N.of_nat 0 + N.of_nat 0 * 2 ^ 32) / 128) with 0. change ((N.of_nat 0 + N.of_nat 1 * 2 ^ 32) / 128) with 33554432.
    replace (N.to_nat 33554432) with m by lia. change (N.to_nat 0) with 0%nat. rewrite H0, (Hs m), Nat.eqb_refl. reflexivity.
  - unfold selected_xor, selected. cbn [seq map length nth]. change (Nat.div 0 128) with 0%nat. rewrite H0. reflexivity.
Qed.
