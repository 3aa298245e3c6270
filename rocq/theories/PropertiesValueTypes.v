(** Properties C14-C18: value types, their proto encodings and sampling. *)
From Coq Require Import List NArith ZArith QArith Lia Bool.
From Verif Require Import Base ValueTypesModel ValueTypesSpec ValueTypesProofs ConvProofs
  BitsProofs TypeProofs SampleSpec SampleProofs SampleJoint.
Import ListNotations.
Open Scope N_scope.

(** A nested type used in the non-vacuity examples. *)
Definition ex_type : cty :=
  TTup [TInt 32; TTup [TMod 64 1000003; TXor 16]; TInt 128].
Definition ex_val1 : cval := VTup [VNum 4294967295; VTup [VNum 1000000; VNum 255]; VNum 7].
Definition ex_val2 : cval := VTup [VNum 2; VTup [VNum 5; VNum 15]; VNum 340282366920938463463374607431768211455].

(** ** C14 *)
(** For every instantiable value type: operator+ computes the documented group sum and
    stays in range, is associative and commutative, T{} is neutral, unary minus is the
    inverse, and a - b = a + (-b). *)
Theorem C14_value_groups : forall t, cty_ok t = true ->
  wt t (vzero t) = true /\
  (forall a, wt t a = true ->
     wt t (vneg t a) = true /\ vadd t a (vzero t) = a /\ vadd t (vzero t) a = a /\
     vadd t a (vneg t a) = vzero t) /\
  (forall a b, wt t a = true -> wt t b = true ->
     wt t (vadd t a b) = true /\ gsum t a b (vadd t a b) /\
     vadd t a b = vadd t b a /\
     wt t (vsub t a b) = true /\ vsub t a b = vadd t a (vneg t b)) /\
  (forall a b c, wt t a = true -> wt t b = true -> wt t c = true ->
     vadd t (vadd t a b) c = vadd t a (vadd t b c)).
Proof.
  intros t H. split; [exact (vzero_wt t H)|]. split; [|split].
  - intros a Ha. auto 10 using vneg_wt, vadd_0_r, vadd_0_l, vadd_neg_r.
  - intros a b Ha Hb. auto 10 using vadd_wt, vadd_gsum, vadd_comm, vsub_wt, vsub_add_neg.
  - intros a b c Ha Hb Hc. symmetry. auto using vadd_assoc.
Qed.
Print Assumptions C14_value_groups.
Example C14_nonvacuous :
  cty_ok ex_type = true /\ wt ex_type ex_val1 = true /\ wt ex_type ex_val2 = true /\
  vadd ex_type ex_val1 ex_val2 = VTup [VNum 1; VTup [VNum 2; VNum 240]; VNum 6].
Proof. vm_compute. auto. Qed.

(** ** C15 *)
Theorem C15_value_round_trip : forall t v, cty_ok t = true -> wt t v = true ->
  from_value t (to_value t v) = Ok v /\
  repr t (to_value t v) v /\
  validate_value (to_value_type t) (to_value t v) = Ok tt.
Proof.
  intros t v Ht Hv. pose proof (to_value_repr t v Ht Hv) as Hr.
  split; [exact (from_to_value t v Ht Hv)|]. split; [exact Hr|].
  exact (validate_value_repr t _ v Ht Hr).
Qed.
Print Assumptions C15_value_round_trip.
Example C15_nonvacuous : cty_ok ex_type = true /\ wt ex_type ex_val1 = true.
Proof. vm_compute. auto. Qed.

(** ** C16 *)
(** Full statement: [from_value t p = Ok v <-> repr t p v] and INVALID_ARGUMENT
    otherwise, for all [t] and [p].  It fails (see the refutation) for unsigned types
    narrower than 128 bits when the proto carries a number of 2^64 or more; it holds
    whenever the type is built from 128-bit integers and IntModN, or all integers in
    the proto are below 2^64. *)
Theorem C16_from_value_rejects_partial : forall t p, cty_ok t = true ->
  wide t = true \/ all_small p = true ->
  (forall v, from_value t p = Ok v <-> repr t p v) /\
  ((forall v, ~ repr t p v) -> from_value t p = Err INVALID_ARGUMENT).
Proof.
  intros t p Ht Hs.
  assert (HI : forall v, from_value t p = Ok v <-> repr t p v).
  { intros v. split; [intros; eapply from_value_sound; eauto
                     |intros; apply from_value_complete; auto]. }
  split; [exact HI|]. intros Hn.
  pose proof (from_value_safe t p) as [Hc Hu].
  destruct (from_value t p) as [v|c| |] eqn:E.
  - exfalso. apply (Hn v), HI. reflexivity.
  - f_equal. eapply from_value_err; eauto.
  - congruence.
  - congruence.
Qed.
Print Assumptions C16_from_value_rejects_partial.
(** In every case FromValue neither crashes nor returns a value outside the type, and
    after ValidateValue it returns the denoted value or INVALID_ARGUMENT. *)
Theorem C16_from_value_in_range : forall t p, cty_ok t = true ->
  (match from_value t p with
   | Ok v => wt t v = true
   | Err c => c = INVALID_ARGUMENT
   | _ => False
   end) /\
  (validate_value (to_value_type t) p = Ok tt ->
   from_value t p = Err INVALID_ARGUMENT \/ exists v, from_value t p = Ok v /\ repr t p v).
Proof.
  intros t p Ht. split; [|exact (validate_value_sound t p Ht)].
  pose proof (from_value_safe t p) as [Hc Hu].
  destruct (from_value t p) as [v|c| |] eqn:E.
  - eapply from_value_wt; eauto.
  - eapply from_value_err; eauto.
  - congruence.
  - congruence.
Qed.
Print Assumptions C16_from_value_in_range.
(** Uint128To only looks at the low 64 bits: 2^64 + 5 is accepted as a uint64_t (or
    uint8_t) and becomes 5. *)
Theorem C16_from_value_rejects_refuted : exists t p v,
  cty_ok t = true /\ from_value t p = Ok v /\ ~ repr t p v.
Proof.
  exists (TInt 64), (PVInteger (VI128 1 5)), (VNum 5).
  split; [reflexivity|]. split; [reflexivity|].
  intros H. apply repr_inv in H. destruct H as (i & x & Hi & Hx & He & _).
  injection Hi as <-. injection Hx as <-. discriminate He.
Qed.
Print Assumptions C16_from_value_rejects_refuted.
Example C16_nonvacuous :
  wide (TTup [TInt 128; TMod 64 1000003]) = true /\
  all_small (PVInteger (VI64 300)) = true /\
  from_value (TInt 8) (PVInteger (VI64 300)) = Err INVALID_ARGUMENT /\
  from_value (TInt 16) (PVInteger (VI64 300)) = Ok (VNum 300).
Proof. vm_compute. auto. Qed.

(** ** C17 *)
(** Full statement: the conclusion for every [t] with [cty_ok t = true].  It is false
    for some tuples that nest tuples (see the refutation).  Proved for: all directly
    convertible types, IntModN, and tuples made of a run of directly convertible
    elements (nested or not) followed by integers, XorWrappers and IntModNs in any
    order.  The arithmetic is over unbounded integers instead of int, and the two
    log2-based comparisons ([fops]) are arbitrary. *)
Theorem C17_bits_needed_enough_partial : forall F t sec bits b,
  cty_ok t = true -> bits_shape t = true ->
  bits_needed F (to_value_type t) sec = Ok bits ->
  length b = (16 * Z.to_nat ((bits + 127) / 128))%nat ->
  exists vs, convert_bytes t b = Ok vs /\ length vs = elements_per_block t /\
             Forall (fun v => wt t v = true) vs.
Proof.
  intros F t sec bits b Ht Hs Hb HL.
  apply convert_bytes_ok; auto. rewrite HL. eapply bits_needed_enough; eauto.
Qed.
Print Assumptions C17_bits_needed_enough_partial.
(** For all types: the conversion succeeds exactly when there are as many bytes as it consumes,
    and crashes otherwise.  So C17 holds exactly for the types that consume at most
    what BitsNeeded reserves. *)
Theorem C17_consumption : forall t b, cty_ok t = true ->
  match convert_bytes t b with
  | Ok vs => (bytes_consumed t <= length b)%nat /\ length vs = elements_per_block t /\
             Forall (fun v => wt t v = true) vs
  | Crash => (length b < bytes_consumed t)%nat
  | _ => False
  end.
Proof.
  intros t b Ht. pose proof (ok_or_crash_convert t b) as HC.
  destruct (Nat.le_gt_cases (bytes_consumed t) (length b)) as [H|H].
  - destruct (convert_bytes_ok t b Ht) as (vs & -> & H1 & H2); auto.
    apply enough_bytes_consumed; auto.
  - destruct (convert_bytes t b) eqn:E; try destruct HC; auto.
    apply convert_bytes_enough in E; auto. apply enough_bytes_consumed in E; auto. lia.
Qed.
Print Assumptions C17_consumption.
Example C17_consumption_nonvacuous :
  let t := TTup [TTup [TMod 128 5]; TInt 8; TInt 8] in
  cty_ok t = true /\ bytes_consumed t = 33%nat /\
  convert_bytes t (repeat 1 33) = Ok [VTup [VTup [VNum 1]; VNum 1; VNum 1]] /\
  convert_bytes t (repeat 1 32) = Crash.
Proof. vm_compute. auto. Qed.
(** Tuple<Tuple<IntModN<uint128, 5>>, uint8_t, uint8_t>: 144 bits, i.e. two blocks, are
    reserved, but the conversion consumes 33 bytes and hits an out-of-range substr. *)
Definition c17_bad : cty := TTup [TTup [TMod 128 5]; TInt 8; TInt 8].
Theorem C17_bits_needed_enough_refuted : forall F,
  f_gt_level F (f_add_log2 F (DFin 40) 3) 1 5 = false ->
  cty_ok c17_bad = true /\
  exists bits, bits_needed F (to_value_type c17_bad) (DFin 40) = Ok bits /\
    Z.to_nat ((bits + 127) / 128) = 2%nat /\
    convert_bytes c17_bad (repeat 0 32) = Crash.
Proof.
  intros F HF. split; [reflexivity|]. exists 144%Z. split; [|split; vm_compute; reflexivity].
  assert (HN : get_num_bytes_required F 1 128 5 (f_add_log2 F (DFin 40) 3) = Ok 16%Z).
  { unfold get_num_bytes_required, check_parameters. change (Z.to_N 1) with 1. rewrite HF. reflexivity. }
  assert (HI : forall sec, get_num_bytes_required F 1 128 5 sec = Ok 16%Z ->
     bits_needed F (to_value_type (TTup [TMod 128 5])) sec = Ok 128%Z).
  { intros sec H. cbn [to_value_type map bits_needed].
    change (bits_count _ None 0 0) with (Ok (Some (to_value_type (TMod 128 5)), 1, 0))%Z.
    cbn [bind Z.to_nat bits_other to_value_type]. rewrite vinteger_round_trip by reflexivity. cbn [bind].
    change (Z.of_N 128) with 128%Z. rewrite H. reflexivity. }
  specialize (HI _ HN). unfold c17_bad. cbn [to_value_type map] in *.
  assert (HU : forall els sec, bits_count els None 0 0 = Ok (None, 0, 3)%Z ->
     bits_needed F (PTTuple els) sec
     = (other <- bits_other (fun el => bits_needed F el (f_add_log2 F sec 3)) els 3 0%Z ;; int_or_ub (0 + other)%Z)).
  { intros els sec H. cbn [bits_needed]. rewrite H. reflexivity. }
  rewrite HU by reflexivity. unfold bits_other. rewrite HI. reflexivity.
Qed.
Print Assumptions C17_bits_needed_enough_refuted.
Example C17_nonvacuous :
  let F := {| f_add_log2 := fun s _ => s; f_gt_level := fun _ _ _ => false |} in
  let t := TTup [TTup [TInt 8; TInt 128]; TMod 32 4294967291; TInt 64; TMod 32 4294967291; TXor 8] in
  cty_ok t = true /\ bits_shape t = true /\ is_direct t = false /\
  bits_needed F (to_value_type t) (DFin 48) = Ok (136 + 128 + 32 + 128 + 64)%Z.
Proof. vm_compute. auto. Qed.

(** ** C18 *)
(** Full statement: the joint distribution of any number n of samples is within
    2^-GetSecurityLevel(n, m) = m * n * (n + 1) / 2^131 of uniform.  (tv_joint is
    2 * m^n * 2^128 * W^(n-1) times the total variation distance, where the input
    is a 128-bit number and n - 1 numbers below W = 2^w.)
    Proved: range and exact acceptance for any number of samples and any bytes; the distance
    for SampleFromBytes with base integers of fewer than 128 bits and any number of samples, and
    for FromBytes of a tuple of any number of equal IntModN types with any base integer, which is
    what the DPF uses.  Missing: SampleFromBytes with 128-bit base integers and two or more
    samples, for which the claim is false (see the refutation). *)
Theorem C18_sampling_partial :
  (forall F w m b sec n, cty_ok (TMod w m) = true ->
   match sample_from_bytes F w m b sec n with
   | Ok l => length l = n /\ (0 < n)%nat /\ Forall (fun x => x < m) l /\
             (16 + nbytes w * (n - 1) <= length b)%nat /\
             f_gt_level F sec (N.of_nat n) m = false
   | Err c => c = INVALID_ARGUMENT /\
       (n = 0%nat \/ (length b < 16 + nbytes w * (n - 1))%nat \/
        f_gt_level F sec (N.of_nat n) m = true)
   | _ => False
   end) /\
  (forall w m, cty_ok (TMod w m) = true ->
   exists f,
     (forall F sec k r xs rest, w < 128 \/ k = 0%nat ->
        r < 2 ^ 128 -> length xs = k -> Forall (fun x => x < 2 ^ w) xs ->
        f_gt_level F sec (N.of_nat (S k)) m = false ->
        sample_from_bytes F w m (le_encode 16 r ++ flat_map (le_encode (nbytes w)) xs ++ rest) sec (S k)
        = Ok (f r xs)) /\
     (forall r rest, r < 2 ^ 128 ->
        from_bytes (TMod w m) (le_encode 16 r ++ rest) = Ok (VNum (hd 0 (f r [])))) /\
     (forall k r xs rest,
        r < 2 ^ 128 -> length xs = k -> Forall (fun x => x < 2 ^ w) xs ->
        from_bytes (TTup (repeat (TMod w m) (S k)))
          (le_encode 16 r ++ flat_map (le_encode (nbytes w)) xs ++ rest)
        = Ok (VTup (map VNum (f r xs)))) /\
     (forall k, let n := N.of_nat (S k) in let W := 2 ^ w in
        2 ^ 131 * tv_joint f (2 ^ 128) W m k
        <= m * n * (n + 1) * (2 * m ^ n * 2 ^ 128 * W ^ N.of_nat k))).
Proof.
  split; [exact sample_from_bytes_spec|].
  intros w m Ht. exists (samples (2 ^ w) (2 ^ (128 - w)) m). split; [|split; [|split]].
  - intros F sec k r xs rest Hk Hr HL Hx HF. subst k. destruct Hk as [Hw|Hk].
    + apply safe_samples; auto.
    + destruct xs; [|discriminate]. exact (first_sample w m Ht F sec r rest Hr HF).
  - intros r rest Hr. exact (from_bytes_mod w m r rest Ht Hr).
  - intros k r xs rest Hr HL Hx. subst k. apply from_bytes_tuple; auto.
  - intros k n W. pose proof (samples_distance w m Ht k) as HB. fold W in HB. fold n in HB.
    replace (N.of_nat (k + 2)) with (n + 1) in HB by (unfold n; lia).
    rewrite N.pow_add_r, N.pow_1_r in HB. change (2 ^ 131) with (2 * 2 ^ 128 * 4).
    rewrite <- N.mul_assoc.
    eapply N.le_trans; [apply N.mul_le_mono_l; exact HB|]. apply N.eq_le_incl.
    set (A := m ^ n). set (B := W ^ N.of_nat k). set (D := 2 ^ 128). clearbody A B D n. lia.
Qed.
Print Assumptions C18_sampling_partial.
(** With a 128-bit base integer, UnsafeSampleFromBytes ORs the next random word into the
    quotient.  For modulus 2^64 the second sample is even for exactly a quarter of all
    32-byte inputs, so its distance from uniform is at least 1/4, although
    SampleFromBytes accepts the call whenever the computed security level suffices. *)
Theorem C18_sampling_refuted :
  exists second : N * N -> N,
  (forall F sec, f_gt_level F sec 2 (2 ^ 64) = false ->
   forall r x, r < 2 ^ 128 -> x < 2 ^ 128 ->
   exists first, sample_from_bytes F 128 (2 ^ 64) (le_encode 16 r ++ le_encode 16 x) sec 2
                 = Ok [first; second (r, x)]) /\
  count (fun p => N.even (second p)) (list_prod (all_below (2 ^ 128)) (all_below (2 ^ 128)))
    * 4 = 2 ^ 128 * 2 ^ 128.
Proof.
  exists (fun p => N.lor (fst p / (2 * 2 ^ 63)) (snd p) mod (2 * 2 ^ 63)). split.
  - intros F sec HF r x Hr Hx. exists (r mod (2 ^ 64)).
    pose proof (sample_from_bytes_spec F 128 (2 ^ 64) (le_encode 16 r ++ le_encode 16 x)
                  sec 2 eq_refl) as HS.
    assert (HU : unsafe_sample_from_bytes 128 (2 ^ 64) (le_encode 16 r ++ le_encode 16 x) 2
                 = Ok [r mod 2 ^ 64; N.lor (r / 2 ^ 64) x mod 2 ^ 64]).
    { apply unsafe_two_samples_128; auto; reflexivity. }
    unfold sample_from_bytes in *. cbn [Nat.eqb] in *.
    destruct (get_num_bytes_required F (Z.of_nat 2) (Z.of_N 128) (2 ^ 64) sec) eqn:E;
      cbn [bind] in *.
    + destruct (Z.of_nat (length (le_encode 16 r ++ le_encode 16 x)) <? a)%Z eqn:E2.
      * destruct HS as [_ [HS|[HS|HS]]]; try discriminate.
        -- rewrite app_length, !ListUtil.le_encode_length in HS. vm_compute in HS. lia.
        -- change (N.of_nat 2) with 2 in HS. congruence.
      * exact HU.
    + destruct HS as [_ [HS|[HS|HS]]]; try discriminate.
      * rewrite app_length, !ListUtil.le_encode_length in HS. vm_compute in HS. lia.
      * change (N.of_nat 2) with 2 in HS. congruence.
    + destruct HS.
    + destruct HS.
  - exact (second_sample_even_count (2 ^ 63) eq_refl (2 ^ 128) eq_refl).
Qed.
Print Assumptions C18_sampling_refuted.
Example C18_nonvacuous :
  cty_ok (TMod 64 1000003) = true /\
  let F := {| f_add_log2 := fun s _ => s; f_gt_level := fun _ _ _ => false |} in
  sample_from_bytes F 64 1000003 (map N.of_nat (seq 1 40)) (DFin 40) 3
    = Ok [6572; 589278; 116883].
Proof. vm_compute. auto. Qed.
