(** Properties of tree walks, the hash function and rejected calls: C19, C21-C23, C46.
    See PropertiesDpf.v for the vocabulary. *)
From Coq Require Import List NArith ZArith QArith Lia Bool ZifyBool ZifyNat ZifyN.
From Verif Require Import Base ListUtil ValueTypesModel ValueTypesSpec ValueTypesProofs
  ConvProofs BitsProofs TypeProofs DpfModel DpfTree DpfWf DpfGen DpfEval DpfPoint DpfCtx DpfApply
  DpfSpec DpfHist DpfReach DpfSafe DpfCreate DpfFacts DpfExamples PropertiesValueTypes.
Import ListNotations.
Ltac Zify.zify_post_hook ::= Z.div_mod_to_equations.
Open Scope N_scope.

(** ** C19: batched tree walks are independent per-seed walks *)

(** One level: the PRG with key left or right, then the correction word if the control bit
    is set; the low bit becomes the new control bit.  [walk aes cws path n] (DpfTree.v)
    descends from [n], consuming the bits of [path] from the most significant one. *)
Theorem C19_shared_corrections : forall aes st paths (cws : list cword),
  length paths = length st -> Forall (fun p => p < 2 ^ 128) paths ->
  evaluate_seeds aes st paths cws = Ok (zip2 (fun p n => walk aes (map corr_of cws) p n) paths st).
Proof. exact evaluate_seeds_walk. Qed.
Print Assumptions C19_shared_corrections.
(** The same in terms of calls with a single seed. *)
Theorem C19_single_calls : forall aes st paths (cws : list cword) out,
  length paths = length st -> Forall (fun p => p < 2 ^ 128) paths ->
  evaluate_seeds aes st paths cws = Ok out ->
  length out = length st /\
  forall i s p o, nth_error st i = Some s -> nth_error paths i = Some p -> nth_error out i = Some o ->
    evaluate_seeds aes [s] [p] cws = Ok [o].
Proof.
  intros aes st paths cws out HL HP H. rewrite evaluate_seeds_walk in H by auto. inv H.
  split; [rewrite zip2_length; auto|]. intros i s p o Hs Hp Ho.
  rewrite zip2_nth_error, Hs, Hp in Ho. inv Ho. rewrite evaluate_seeds_walk; auto.
  constructor; auto. rewrite Forall_forall in HP. apply HP. eapply nth_error_In; eauto.
Qed.
Print Assumptions C19_single_calls.
(** With per-seed correction words (stored level by level) every seed uses its own. *)
Theorem C19_own_corrections : forall aes st paths rs (cols : list (list corr)) n,
  length paths = length st -> length cols = length st ->
  Forall (fun p => p < 2 ^ 128) paths -> Forall (fun c => length c = n) cols -> (0 < n)%nat ->
  evaluate_seeds_internal aes n (Z.of_nat n * Z.of_nat (length st)) st paths rs
    (concat (map (fun l => map (fun c => nth l c (0, (false, false))) cols) (seq 0 n)))
  = Ok (zip3 (fun col p nd => walk aes col (p / 2 ^ N.of_nat rs) nd) cols paths st).
Proof.
  intros aes st paths rs cols n H1 H2 H3 H4 H5. rewrite evaluate_seeds_internal_each by auto. f_equal.
  assert (HE : forall (f g : list corr -> N -> node -> node) a b c, (forall x y z, f x y z = g x y z) -> zip3 f a b c = zip3 g a b c).
  { clear. induction a as [|x a IH]; intros [|y b] [|z c] H; cbn [zip3]; auto. rewrite H, (IH b c); auto. }
  apply HE. intros x y z. rewrite N.shiftr_div_pow2. reflexivity.
Qed.
Print Assumptions C19_own_corrections.
Example C19_nonvacuous :
  let st := map (fun i => (N.of_nat i * 1000003, Nat.even i)) (seq 0 70) in
  let paths := map (fun i => N.of_nat (i * 7)) (seq 0 70) in
  exists out, evaluate_seeds ex_aes st paths (k_cws ex_k0) = Ok out /\ length out = 70%nat /\
    nth_error out 69 = Some (walk ex_aes (map corr_of (k_cws ex_k0)) 483 (69000207, false)).
Proof. vm_compute. eexists. repeat split; reflexivity. Qed.

(** ** C21: full expansion enumerates the leaves in order *)
Theorem C21_expand_order : forall aes st (cws : list cword),
  N.of_nat (length st) * 2 ^ N.of_nat (length cws) < 2 ^ 60 ->
  exists out, expand_seeds aes st cws = Ok out /\
    length out = (length st * 2 ^ length cws)%nat /\
    forall i j n, nth_error st i = Some n -> (j < 2 ^ length cws)%nat ->
      nth_error out (i * 2 ^ length cws + j) = Some (walk aes (map corr_of cws) (N.of_nat j) n).
Proof.
  intros aes st cws H. exists (fold_left (fun s cw => expand_level aes cw s) cws st).
  split; [apply expand_seeds_ok; auto|]. split; [apply expand_len|].
  rewrite expand_flat. intros i j n Hi Hj. revert i Hi.
  induction st as [|s st IH]; intros [|i] Hi; try discriminate; cbn [flat_map].
  - inv Hi. cbn [Nat.mul Nat.add]. rewrite nth_error_app1 by (rewrite map_length, below_length; auto).
    rewrite nth_error_map, below_nth_error by auto. reflexivity.
  - rewrite nth_error_app2; rewrite map_length, below_length; [|lia].
    replace (S i * 2 ^ length cws + j - 2 ^ length cws)%nat with (i * 2 ^ length cws + j)%nat by lia.
    apply IH; auto. cbn [length] in H. lia.
Qed.
Print Assumptions C21_expand_order.
(** Position i * 2^d + j is also what EvaluateSeeds returns for root i and path j. *)
Theorem C21_expand_is_evaluate : forall aes st (cws : list cword) out,
  N.of_nat (length st) * 2 ^ N.of_nat (length cws) < 2 ^ 60 ->
  expand_seeds aes st cws = Ok out ->
  forall i j n o, nth_error st i = Some n -> (j < 2 ^ length cws)%nat ->
    nth_error out (i * 2 ^ length cws + j) = Some o ->
    evaluate_seeds aes [n] [N.of_nat j] cws = Ok [o].
Proof.
  intros aes st cws out H HO i j n o Hi Hj Ho. destruct (C21_expand_order aes st cws H) as (out' & HO' & _ & HX).
  rewrite HO in HO'. inv HO'. rewrite (HX i j n Hi Hj) in Ho. inv Ho. rewrite evaluate_seeds_walk; auto.
  constructor; auto.
  assert (1 <= N.of_nat (length st)). { destruct st; [destruct i; discriminate|cbn [length]; lia]. }
  assert (N.of_nat j < 2 ^ N.of_nat (length cws)) by (rewrite <- pow2_nat_N; lia).
  set (m := 2 ^ N.of_nat (length cws)) in *. change (2 ^ 60) with 1152921504606846976 in H. nia.
Qed.
Print Assumptions C21_expand_is_evaluate.
Example C21_nonvacuous :
  let st := [(5, true); (77, false); (2 ^ 127, true)] in
  exists out, expand_seeds ex_aes st (firstn 4 (k_cws ex_k0)) = Ok out /\ length out = 48%nat /\
    nth_error out (2 * 16 + 11) = Some (walk ex_aes (map corr_of (firstn 4 (k_cws ex_k0))) 11 (2 ^ 127, true)).
Proof. vm_compute. eexists. repeat split; reflexivity. Qed.

(** ** C22: the fixed-key hash is a pointwise function of each block *)

(** sigma written without the model's helpers: (hi, lo) becomes (hi xor lo, hi). *)
Definition sigma_spec (x : N) : N := N.lxor (x / 2 ^ 64) (x mod 2 ^ 64) * 2 ^ 64 + x / 2 ^ 64.
Lemma lxor_lt64 : forall a b, a < 2 ^ 64 -> b < 2 ^ 64 -> N.lxor a b < 2 ^ 64.
Proof.
  intros a b Ha Hb. destruct (N.eq_0_gt_0_cases (N.lxor a b)) as [->|Hp]; [reflexivity|].
  apply N.log2_lt_pow2; auto. eapply N.le_lt_trans; [apply N.log2_lxor|].
  assert (HL : forall c, c < 2 ^ 64 -> N.log2 c < 64).
  { intros c Hc. destruct (N.eq_0_gt_0_cases c) as [->|Hcp]; [reflexivity|]. apply N.log2_lt_pow2; auto. }
  apply N.max_lub_lt; auto.
Qed.
Theorem C22_hash_pointwise : forall aes key input out_size,
  Forall (fun x => x < 2 ^ 128) input ->
  (length input = out_size ->
     prg_evaluate_checked aes key input out_size
     = Ok (map (fun x => N.lxor (aes key (sigma_spec x)) (sigma_spec x)) input)) /\
  (length input <> out_size -> prg_evaluate_checked aes key input out_size = Err INVALID_ARGUMENT).
Proof.
  intros aes key input out_size HF. unfold prg_evaluate_checked. split; intros H.
  - rewrite H, Nat.eqb_refl. cbn [check bind]. f_equal. rewrite prg_evaluate_hash. apply map_ext_in.
    intros x Hx. unfold hash. rewrite Forall_forall in HF. specialize (HF x Hx).
    assert (HS : sigma x = sigma_spec x).
    { unfold sigma, sigma_spec, mk128, hi64, lo64.
      change P64 with (2 ^ 64).
      assert (Hh : x / 2 ^ 64 < 2 ^ 64) by (apply N.div_lt_upper_bound; [discriminate|exact HF]).
      rewrite !(N.mod_small (x / 2 ^ 64)) by exact Hh. rewrite N.mod_small; [reflexivity|].
      apply lxor_lt64; [exact Hh|]. apply N.mod_lt. discriminate. }
    rewrite HS. reflexivity.
  - destruct (Nat.eqb_spec (length input) out_size); [congruence|]. reflexivity.
Qed.
Print Assumptions C22_hash_pointwise.
(** sigma is linear over xor and a bijection on blocks. *)
Theorem C22_sigma_linear_bijection :
  (forall x y, x < 2 ^ 128 -> y < 2 ^ 128 -> sigma (N.lxor x y) = N.lxor (sigma x) (sigma y)) /\
  (forall x, sigma x < 2 ^ 128) /\
  (forall x y, x < 2 ^ 128 -> y < 2 ^ 128 -> sigma x = sigma y -> x = y) /\
  (forall z, z < 2 ^ 128 -> exists x, x < 2 ^ 128 /\ sigma x = z).
Proof.
  assert (HD : forall x, hi64 x < P64 /\ lo64 x < P64).
  { intros x. unfold hi64, lo64. split; apply N.mod_lt; discriminate. }
  pose proof lxor_lt64 as HX. change (2 ^ 64) with P64 in HX.
  assert (HM : forall h l, h < P64 -> l < P64 -> mk128 h l < 2 ^ 128 /\ hi64 (mk128 h l) = h /\ lo64 (mk128 h l) = l).
  { intros h l Hh Hl. unfold mk128, hi64, lo64. change (2 ^ 128) with (P64 * P64). rewrite !(N.mod_small h), !(N.mod_small l) by auto.
    split; [nia|]. rewrite N.div_add_l by discriminate. rewrite (N.div_small l), N.add_0_r, (N.mod_small h) by auto.
    split; auto. rewrite N.add_comm, N.mod_add by discriminate. apply N.mod_small; auto. }
  assert (HE : forall x, x < 2 ^ 128 -> mk128 (hi64 x) (lo64 x) = x).
  { intros x Hx. unfold mk128, hi64, lo64. rewrite !N.mod_mod by discriminate.
    rewrite (N.mod_small (x / P64)). 2:{ apply N.div_lt_upper_bound; [discriminate|exact Hx]. }
    rewrite N.mul_comm. symmetry. apply N.div_mod. discriminate. }
  assert (HXm : forall h l h' l', h < P64 -> l < P64 -> h' < P64 -> l' < P64 ->
     N.lxor (mk128 h l) (mk128 h' l') = mk128 (N.lxor h h') (N.lxor l l')).
  { intros h l h' l' Hh Hl Hh' Hl'.
    assert (HB : forall a b i, a < P64 -> b < P64 -> N.testbit (mk128 a b) i = if i <? 64 then N.testbit b i else N.testbit a (i - 64)).
    { intros a b i Ha Hb. unfold mk128. rewrite !N.mod_small by auto. change P64 with (2 ^ 64) in *.
      destruct (N.ltb_spec i 64) as [Hi|Hi].
      - rewrite N.add_comm. rewrite <- (N.mod_pow2_bits_low _ 64 i) by auto. rewrite N.mod_add by discriminate.
        rewrite N.mod_pow2_bits_low by auto. reflexivity.
      - replace i with (i - 64 + 64) at 1 by lia. rewrite <- N.div_pow2_bits. rewrite N.div_add_l by discriminate.
        rewrite (N.div_small b), N.add_0_r by auto. reflexivity. }
    apply N.bits_inj. intros i. rewrite N.lxor_spec, !HB by auto. destruct (i <? 64); rewrite N.lxor_spec; reflexivity. }
  assert (HL : forall x y, x < 2 ^ 128 -> y < 2 ^ 128 ->
     hi64 (N.lxor x y) = N.lxor (hi64 x) (hi64 y) /\ lo64 (N.lxor x y) = N.lxor (lo64 x) (lo64 y)).
  { intros x y Hx Hy. rewrite <- (HE x Hx) at 1 3. rewrite <- (HE y Hy) at 1 3.
    destruct (HD x), (HD y). rewrite HXm by auto.
    destruct (HM (N.lxor (hi64 x) (hi64 y)) (N.lxor (lo64 x) (lo64 y))) as (_ & H3 & H4); auto. }
  split; [|split; [|split]].
  - intros x y Hx Hy. unfold sigma. destruct (HL x y Hx Hy) as [-> ->]. destruct (HD x), (HD y).
    rewrite HXm by auto. f_equal. rewrite !N.lxor_assoc. f_equal. rewrite <- !N.lxor_assoc. f_equal. apply N.lxor_comm.
  - intros x. unfold sigma. destruct (HD x). apply HM; auto.
  - intros x y Hx Hy HS. unfold sigma in HS. destruct (HD x), (HD y).
    destruct (HM (N.lxor (hi64 x) (lo64 x)) (hi64 x)) as (_ & H3 & H4); auto.
    destruct (HM (N.lxor (hi64 y) (lo64 y)) (hi64 y)) as (_ & H5 & H6); auto.
    rewrite HS in H3, H4. rewrite H4 in H6. rewrite H3 in H5. rewrite <- H6 in H5.
    assert (lo64 x = lo64 y).
    { apply (f_equal (N.lxor (hi64 x))) in H5. rewrite !lxor_cancel_l in H5. auto. }
    rewrite <- (HE x Hx), <- (HE y Hy). congruence.
  - intros z Hz. destruct (HD z). exists (mk128 (lo64 z) (N.lxor (hi64 z) (lo64 z))).
    destruct (HM (lo64 z) (N.lxor (hi64 z) (lo64 z))) as (H3 & H4 & H5); auto. split; auto.
    unfold sigma. rewrite H4, H5. rewrite (N.lxor_comm (hi64 z)), lxor_cancel_l. apply HE. auto.
Qed.
Print Assumptions C22_sigma_linear_bijection.
Example C22_nonvacuous :
  Forall (fun x => x < 2 ^ 128) [2 ^ 127 + 3; 0; 17] /\
  prg_evaluate_checked ex_aes 5 [2 ^ 127 + 3; 0; 17] 2 = Err INVALID_ARGUMENT /\
  exists a b, prg_evaluate_checked ex_aes 5 [2 ^ 127 + 3; 0; 17] 3 = Ok [a; b; N.lxor (ex_aes 5 (17 * 2 ^ 64)) (17 * 2 ^ 64)].
Proof. split; [repeat constructor|]. split; [reflexivity|]. vm_compute. eexists _, _. reflexivity. Qed.

(** ** C23: rejected calls of EvaluateUntil leave the context unchanged *)

(** The reasons to reject a call before evaluating anything. *)
Inductive rejected_up_front (ps : list param) (d : dpf) (T : cty) (h : Z) (prefixes : list N) (c : ectx) : Prop :=
| rej_call : bad_call ps (c_prev c) T h prefixes -> rejected_up_front ps d T h prefixes c
| rej_context : validate_evaluation_context d c <> Ok tt -> rejected_up_front ps d T h prefixes c
| rej_size : (0 <= c_prev c)%Z -> 63 <= level_ld ps (Z.to_nat h) - level_ld ps (Z.to_nat (c_prev c)) ->
    rejected_up_front ps d T h prefixes c
| rej_size_first : (c_prev c < 0)%Z -> 63 <= level_ld ps (Z.to_nat h) -> rejected_up_front ps d T h prefixes c.
Theorem C23_rejected_unchanged : forall aes F ps types d T h prefixes c,
  created F ps types d -> cty_ok T = true -> rejected_up_front ps d T h prefixes c ->
  evaluate_until aes d T h prefixes c = (Err INVALID_ARGUMENT, c).
Proof.
  intros aes F ps types d T h prefixes c HC Hok HB. pose proof (created_wf _ _ _ _ HC) as (W & _).
  pose proof (created_len _ _ _ _ HC) as HL.
  destruct HB as [HB|HB|Hq HB|Hq HB]; [apply (bad_call_rejected aes F ps types d); auto| | |];
    apply until_rejected; auto; intros g EC.
  - apply HB. unfold evaluate_until_checks in EC. bind_inv EC. destruct a. auto.
  - destruct (until_checks_inv d W _ _ _ _ _ Hok EC) as (Hh & HT & Ho & He & HF & Hg & Hgq & _ & HV).
    assert (HX : length prefixes <> 0%nat).
    { intros HX. destruct prefixes; [|discriminate]. assert (c_prev c < 0)%Z by (apply He; auto). lia. }
    unfold prev_ld in Hgq. destruct (Nat.eqb_spec (length prefixes) 0) as [|_]; [congruence|].
    rewrite !(created_ld _ _ _ _ _ HC) in HB by lia. unfold lvl in *. lia.
  - destruct (until_checks_inv d W _ _ _ _ _ Hok EC) as (Hh & HT & Ho & He & HF & Hg & Hgq & _ & HV).
    assert (HX : prefixes = []) by (apply He; auto). subst prefixes. unfold prev_ld in Hgq. cbn [length Nat.eqb] in Hgq.
    rewrite !(created_ld _ _ _ _ _ HC) in HB by lia. lia.
Qed.
Print Assumptions C23_rejected_unchanged.
(** With a generated key, every failing call leaves the context unchanged, whatever calls
    preceded it. *)
Theorem C23_generated_key_unchanged : forall aes F ps types d alpha beta seed0 seed1 k0 k1,
  created F ps types d -> alpha < 2 ^ 128 ->
  generate_keys aes d alpha beta seed0 seed1 = Ok (k0, k1) ->
  forall key c prev stored T h prefixes e c', key = k0 \/ key = k1 ->
  after aes d ps key c prev stored -> cty_ok T = true ->
  Forall (fun p => p < 2 ^ 128) prefixes -> expansion_fits d prev (Z.to_nat h) prefixes ->
  evaluate_until aes d T h prefixes c = (Err e, c') -> c' = c.
Proof.
  intros aes F ps types d alpha beta seed0 seed1 k0 k1 HC Ha HG key c prev stored T h prefixes e c' Hkey HA Hok HP Hfit HU.
  assert (HTy : all_typed ps) by (eapply gen_all_typed; eauto).
  pose proof (created_wf _ _ _ _ HC) as (W & _). pose proof (created_len _ _ _ _ HC) as HLn.
  destruct (evaluate_until_checks d T h prefixes c) as [g| | |] eqn:HCk.
  2-4: unfold evaluate_until in HU; rewrite HCk in HU; congruence.
  destruct (after_inv aes F ps types d HC HTy _ _ _ _ HA) as (I & Hprev & _). pose proof HCk as HCk'.
  apply (until_checks_inv d W T h prefixes c g Hok) in HCk'.
  destruct HCk' as (Hh & HT & Hord & Hpr & Hrange & Hg & Hgeq & Hsz & Hval).
  destruct (context_prev d c Hval) as (_ & Hpl & _).
  set (hn := Z.to_nat h) in *. replace h with (Z.of_nat hn) in * by lia.
  assert (Hr' : Forall (fun p => p < 2 ^ N.of_nat (ld d (lvl (c_prev c)))) prefixes).
  { rewrite Forall_forall in *. intros p Hp. apply Hrange; auto. }
  assert (A : until_args d T hn prefixes c).
  { constructor; auto; try lia.
    assert (Hlen : N.of_nat (length prefixes) < 2 ^ 60).
    { destruct Hfit as [_ Hfit]. match type of Hfit with _ * 2 ^ ?k < _ =>
        pose proof (N.pow_nonzero 2 k ltac:(lia)) end.
      match type of Hfit with _ * ?m < _ => nia end. }
    rewrite <- Hgeq. assert (Hlt : N.of_nat (length prefixes) * 2 ^ N.of_nat g < P128).
    { assert (2 ^ N.of_nat g <= 2 ^ 62) by (apply N.pow_le_mono_r; lia).
      change (2 ^ 60) with 1152921504606846976 in Hlen. change (2 ^ 62) with 4611686018427387904 in H. nia. }
    rewrite N.mod_small in Hsz by exact Hlt. exact Hsz. }
  assert (Hp' : match prev with None => prefixes = [] | Some q => (q < hn)%nat /\ prefixes <> [] end).
  { destruct prev as [q|]; rewrite Hprev in *; cbn [prev_z] in *.
    - split; [lia|]. intros HX. apply Hpr in HX. lia.
    - apply Hpr. lia. }
  assert (HM : until_memory d hn prefixes c) by (eapply (fits_memory d); eauto).
  assert (HE : enough_bytes T (16 * blocks d hn)) by (eapply gen_enough; eauto; eapply level_type_has; eauto).
  rewrite (evaluate_until_eq aes d W key c T hn prefixes I Hpl A HE HM) in HU.
  destruct (until_covered d prefixes c); [|congruence].
  assert (HTs : level_has ps hn T) by (eapply level_type_has; eauto).
  destruct (share_prefix aes F ps types d HC alpha beta seed0 seed1 k0 k1 Ha HG hn T HTs)
    as (b & v & corrs & _ & _ & H0 & H1 & _).
  assert (HV : values_to_array T (key_values d key hn) = Ok corrs) by (destruct Hkey; subst; auto).
  rewrite HV in HU. cbn [bind] in HU. discriminate.
Qed.
Print Assumptions C23_generated_key_unchanged.
Example C23_nonvacuous : exists c c', create_evaluation_context ex_d ex_k0 = Ok c /\
  fst (evaluate_until ex_aes ex_d (TInt 8) 0 [] c) <> Err INVALID_ARGUMENT /\
  snd (evaluate_until ex_aes ex_d (TInt 8) 0 [] c) = c' /\ c' <> c /\
  (* rejected: prefix out of range; then the context still works *)
  evaluate_until ex_aes ex_d ex_tuple 1 [3; 4] c' = (Err INVALID_ARGUMENT, c') /\
  rejected_up_front ex_ps ex_d ex_tuple 1 [3; 4] c' /\
  exists r, fst (evaluate_until ex_aes ex_d ex_tuple 1 [3] c') = Ok r.
Proof.
  eexists _, _. split; [vm_compute; reflexivity|]. split; [vm_compute; discriminate|].
  split; [vm_compute; reflexivity|]. split; [discriminate|]. split; [vm_compute; reflexivity|].
  split; [|vm_compute; eexists; reflexivity].
  apply rej_call, (bad_range _ _ _ _ _ 4); [right; left; auto|]. vm_compute. split; [discriminate|reflexivity].
Qed.

(** ** C46: points out of range *)

(** EvaluateAt with and without a context.  Missing from C46: EvaluateAndApply and the
    DCF do not check their points (C46_evaluate_and_apply_refuted and
    C46_dcf_refuted). *)
Theorem C46_evaluate_at_partial : forall aes F ps types d T key h points c,
  created F ps types d -> (0 <= h < Z.of_nat (length ps))%Z ->
  (exists x, In x points /\ 2 ^ level_ld ps (Z.to_nat h) <= x) ->
  evaluate_at aes d T key h points = Err INVALID_ARGUMENT /\
  evaluate_at_ctx aes d T h points c = (Err INVALID_ARGUMENT, c).
Proof.
  intros aes F ps types d T key h points c HC Hh (x & Hx & Hr).
  pose proof (created_wf _ _ _ _ HC) as (W & _). pose proof (created_len _ _ _ _ HC) as HL.
  assert (HN : forall k, evaluate_at_checks d k h points = Err INVALID_ARGUMENT).
  { intros k. apply ooi_not_ok; [apply at_checks_ooi; auto|]. intros [] H. apply (at_checks_inv d W) in H.
    destruct H as (_ & _ & HF). rewrite Forall_forall in HF. specialize (HF x Hx).
    rewrite (created_ld _ _ _ _ _ HC) in Hr by lia. lia. }
  unfold evaluate_at, evaluate_at_ctx. rewrite !HN. auto.
Qed.
Print Assumptions C46_evaluate_at_partial.
(** EvaluateAndApply does not check its points: point 2^20 of a domain of size 2^7 is
    accepted, and its high bits are dropped. *)
Definition ex46_out : list (list cval) := Eval vm_compute in
  match evaluate_and_apply ex_aes ex3_d (TInt 32) (map gp_key0 ex3_gs) [77; 2 ^ 20; 3]
          (fun s vs => (s ++ [vs], true)) 0 [] with Ok s => s | _ => [] end.
Theorem C46_evaluate_and_apply_refuted : exists aes F ps types d T keys points s',
  created F ps types d /\ (forall h, (h < length ps)%nat -> level_has ps h T) /\
  (exists x, In x points /\ 2 ^ last_ld ps <= x) /\
  evaluate_and_apply aes d T keys points (fun s vs => (s ++ [vs], true)) 0 [] = Ok s' /\ length s' = length ps.
Proof.
  exists ex_aes, ex_F, ex3_ps, [], ex3_d, (TInt 32), (map gp_key0 ex3_gs), [77; 2 ^ 20; 3], ex46_out.
  split; [exact ex3_created|]. split.
  { intros [|[|h]] Hh; [lhas|lhas|]. cbn in Hh. lia. }
  split; [exists (2 ^ 20); split; [right; left; auto|vm_compute; discriminate]|].
  split; vm_compute; reflexivity.
Qed.
Print Assumptions C46_evaluate_and_apply_refuted.
Example C46_nonvacuous : evaluate_at ex_aes ex_d ex_tuple ex_k0 1 [3; 64] = Err INVALID_ARGUMENT /\
  exists r, evaluate_at ex_aes ex_d ex_tuple ex_k0 1 [3; 63] = Ok r.
Proof. vm_compute. split; [reflexivity|eexists; reflexivity]. Qed.
