(** C07 without conditions on the value types: every outcome of GenerateKeysIncremental.  See
    PropertiesDpf.v for the vocabulary. *)
From Coq Require Import List NArith ZArith QArith Lia Bool ZifyBool ZifyNat ZifyN.
From Verif Require Import Base ListUtil ValueTypesModel ValueTypesSpec ValueTypesProofs
  ConvProofs BitsProofs TypeProofs DpfModel DpfTree DpfWf DpfGen DpfEval DpfPoint DpfCtx DpfApply
  DpfSpec DpfHist DpfReach DpfSafe DpfCreate DpfFacts DpfExamples PropertiesValueTypes PropertiesDpf PropertiesDpfApi.
Import ListNotations.
Ltac Zify.zify_post_hook ::= Z.div_mod_to_equations.
Open Scope N_scope.

(** The C++ types known to a DPF: those registered by the caller and the unsigned integers. *)
Definition known (types : list cty) (T : cty) : Prop :=
  In T (types ++ [TInt 128; TInt 64; TInt 32; TInt 16; TInt 8]).
(** Level [h] has a value type that is the encoding of no known type. *)
Definition unknown_level (ps : list param) (types : list cty) (h : nat) : Prop :=
  exists p, nth_error ps h = Some p /\ forall T, known types T -> p_vt p <> Some (to_value_type T).
(** Level [h] has a known type, with or without as many reserved bytes as a value consumes. *)
Definition supported_level (ps : list param) (types : list cty) (d : dpf) (h : nat) : Prop :=
  exists p T, nth_error ps h = Some p /\ known types T /\ p_vt p = Some (to_value_type T) /\
              (bytes_consumed T <= 16 * nth h (d_blocks d) 0)%nat.
Definition cramped_level (ps : list param) (types : list cty) (d : dpf) (h : nat) : Prop :=
  exists p T, nth_error ps h = Some p /\ known types T /\ p_vt p = Some (to_value_type T) /\
              (16 * nth h (d_blocks d) 0 < bytes_consumed T)%nat.

Section Outcomes.
Variable aes : N -> N -> N.
Variables (F : fops) (ps : list param) (types : list cty) (d : dpf).
Hypothesis HC : created F ps types d.
Let W : wf d := proj1 (created_wf _ _ _ _ HC).

Definition outcome {A} (good : Prop) (r : res A) : Prop :=
  match r with
  | Ok _ => True
  | Err e => (e = INVALID_ARGUMENT /\ ~ good) \/ (e = FAILED_PRECONDITION /\ exists h, unknown_level ps types h)
  | Crash => exists h, cramped_level ps types d h
  | UB => False
  end.
Lemma outcome_bind : forall A B (good : Prop) (r : res A) (f : A -> res B),
  outcome good r -> (forall a, r = Ok a -> outcome good (f a)) -> outcome good (bind r f).
Proof. intros A B good [a|e| |] f H Hf; cbn in *; auto. Qed.

Lemma loop_vt : forall l prev h p, validate_parameters_loop l prev = Ok tt -> nth_error l h = Some p ->
  p_vt p = Some (p_type p).
Proof.
  clear. induction l as [|q l IH]; intros prev [|h] p H Hp; try discriminate; cbn [validate_parameters_loop] in H.
  - injection Hp as ->. bind_inv H. bind_inv H. bind_inv H. bind_inv H. unfold p_type. destruct (p_vt p); [reflexivity|discriminate].
  - bind_inv H. bind_inv H. bind_inv H. bind_inv H. bind_inv H. bind_inv H. eauto.
Qed.
Lemma param_vt : forall h p, nth_error ps h = Some p -> p_vt p = Some (p_type p).
Proof.
  intros h p Hp. pose proof HC as (d0 & Hd0 & _). unfold create_incremental, validator_create in Hd0. bind_inv Hd0.
  bind_inv Hb. destruct a0. unfold validate_parameters in Hb0. bind_inv Hb0. eapply loop_vt; eauto.
Qed.

Lemma known_types : d_types d = types ++ [TInt 128; TInt 64; TInt 32; TInt 16; TInt 8].
Proof.
  pose proof HC as (d0 & Hc & _ & Hd). rewrite Hd. pose proof (fold_register types d0) as HR. cbv zeta in HR.
  destruct HR as (_ & _ & _ & _ & ->). f_equal. unfold create_incremental in Hc. bind_inv Hc.
  destruct a as [[ps' needed] h2ts]. bind_inv Hc. injection Hc as <-. reflexivity.
Qed.

Lemma convert_outcome : forall T h seeds i, level_type d h T -> (i < length seeds)%nat ->
  match convert_bytes T (block_bytes (blocks d h) (hash_expanded_seeds aes (blocks d h) seeds) i) with
  | Ok vs => (bytes_consumed T <= 16 * blocks d h)%nat /\ length vs = elements_per_block T
  | Crash => (16 * blocks d h < bytes_consumed T)%nat
  | _ => False
  end.
Proof.
  intros T h seeds i HT Hi. destruct (nth_error seeds i) as [s|] eqn:Es.
  2:{ apply nth_error_None in Es. lia. }
  rewrite (block_bytes_node aes d h seeds i s Es).
  pose proof (C17_consumption T (node_bytes aes d h s) (proj1 HT)) as HX. rewrite node_bytes_length in HX.
  destruct (convert_bytes T (node_bytes aes d h s)); tauto.
Qed.

(** One value correction. *)
Lemma correction_outcome : forall h sa sb alpha b inv, (h < nlevels d)%nat ->
  match compute_value_correction aes d h sa sb alpha b inv with
  | Ok _ => supported_level ps types d h
  | Err e => (e = INVALID_ARGUMENT /\ exists T, level_type d h T /\ forall v, from_value T b <> Ok v) \/
             (e = FAILED_PRECONDITION /\ unknown_level ps types h)
  | Crash => cramped_level ps types d h
  | UB => False
  end.
Proof.
  intros h sa sb alpha b inv Hh.
  destruct (nth_error (d_params d) h) as [q|] eqn:Eq.
  2:{ apply nth_error_None in Eq. unfold nlevels in Hh. lia. }
  destruct (created_param F ps types d HC h q Eq) as (p & Hp & Hty). pose proof (param_vt h p Hp) as Hvt.
  unfold compute_value_correction, at_or_ub. rewrite Eq. cbn [bind].
  unfold get_value_correction_function. pose proof known_types as HTs.
  destruct (find (fun T0 => ptype_eqb (to_value_type T0) (p_type q)) (d_types d)) as [T|] eqn:Ef; cbn [bind].
  2:{ right. split; [reflexivity|]. exists p. split; [exact Hp|]. intros T HT HE.
      unfold known in HT. rewrite <- HTs in HT. pose proof (find_none _ _ Ef _ HT) as HX. cbv beta in HX.
      assert (ptype_eqb (to_value_type T) (p_type q) = true) by (apply ptype_eqb_eq; rewrite Hvt in HE; injection HE as HE; congruence). congruence. }
  apply find_some in Ef. destruct Ef as [HT E2]. apply ptype_eqb_eq in E2.
  pose proof (wf_types _ W) as HTy. rewrite Forall_forall in HTy. pose proof (HTy _ HT) as Hok.
  assert (HL : level_type d h T).
  { split; auto. exists q. split; auto. rewrite <- E2. apply to_value_type_denotes. auto. }
  assert (HK : known types T) by (unfold known; rewrite <- HTs; exact HT).
  assert (Hvt' : p_vt p = Some (to_value_type T)) by congruence.
  unfold compute_value_correction_for.
  destruct (from_value T b) as [bT|e| |] eqn:EF; cbn [bind].
  - assert (HE : prg_evaluate aes kPrgKeyValue
            (map (fun j : nat => w128 (sa + N.of_nat j)) (seq 0 (blocks d h)) ++
             map (fun j : nat => w128 (sb + N.of_nat j)) (seq 0 (blocks d h)))
            = hash_expanded_seeds aes (blocks d h) [sa; sb]).
    { unfold hash_expanded_seeds. cbn [map concat]. rewrite app_nil_r. reflexivity. }
    rewrite HE.
    pose proof (convert_outcome T h [sa; sb] 0 HL ltac:(cbn; lia)) as H0.
    pose proof (convert_outcome T h [sa; sb] 1 HL ltac:(cbn; lia)) as H1.
    destruct (convert_bytes T (block_bytes (blocks d h) (hash_expanded_seeds aes (blocks d h) [sa; sb]) 0)) as [ea|e| |]; cbn [bind]; try tauto.
    2:{ exists p, T. auto. }
    destruct (convert_bytes T (block_bytes (blocks d h) (hash_expanded_seeds aes (blocks d h) [sa; sb]) 1)) as [eb|e| |]; cbn [bind]; try tauto.
    2:{ exists p, T. auto. }
    pose proof (block_index_epb aes d W h T Hh HL alpha) as Hbi.
    unfold at_or_ub. destruct (nth_error eb (domain_to_block_index d alpha h)) eqn:En; cbn [bind].
    + exists p, T. tauto.
    + apply nth_error_None in En. lia.
  - left. split; [eapply from_value_err; eauto|]. exists T. split; [exact HL|]. intros v. rewrite EF. discriminate.
  - pose proof (from_value_safe T b) as [HX _]. congruence.
  - pose proof (from_value_safe T b) as [_ HX]. congruence.
Qed.

Lemma args_from_value : forall alpha beta h b T, keygen_args ps alpha beta -> nth_error beta h = Some b ->
  level_type d h T -> exists v, from_value T b = Ok v.
Proof.
  intros alpha beta h b T [HF _] Hb (Hok & q & Hq & HD). destruct (created_param F ps types d HC h q Hq) as (p & Hp & Hty).
  assert (HX : exists T v, cty_ok T = true /\ denotes (p_type p) T /\ repr T b v).
  { clear - HF Hp Hb. revert h Hp Hb. induction HF as [|? ? ? ? ? ? IHF]; intros [|h] Hp Hb; try discriminate; cbn in Hp, Hb.
    - injection Hp as ->. injection Hb as ->. auto.
    - eauto. }
  destruct HX as (T' & v & Hok' & HD' & Hr).
  assert (T = T') as <- by (eapply denotes_fun; eauto; congruence).
  exists v. apply from_value_complete; auto.
Qed.
Lemma correction_outcome' : forall beta alpha0 h sa sb alpha b inv, nth_error beta h = Some b -> (h < nlevels d)%nat ->
  outcome (keygen_args ps alpha0 beta) (compute_value_correction aes d h sa sb alpha b inv).
Proof.
  intros beta alpha0 h sa sb alpha b inv Hb Hh. pose proof (correction_outcome h sa sb alpha b inv Hh) as HX.
  destruct (compute_value_correction aes d h sa sb alpha b inv) as [vs|e| |]; cbn; eauto.
  destruct HX as [[-> (T & HT & HN)]|[-> HU]]; [left|right; eauto]. split; [reflexivity|]. intros HA.
  destruct (args_from_value alpha0 beta h b T HA Hb HT) as (v & Hv). exact (HN v Hv).
Qed.

Lemma generate_loop_outcome : forall n i alpha0 alpha beta g, length beta = nlevels d ->
  outcome (keygen_args ps alpha0 beta) (generate_loop aes d n i alpha beta g).
Proof.
  induction n as [|n IH]; intros i alpha0 alpha beta g HL; cbn [generate_loop]; [exact I|].
  apply outcome_bind.
  - unfold generate_next. rewrite !prg_evaluate_hash. cbn [map at_or_ub nth_error bind].
    destruct (tree_to_hierarchy d (i - 1)) as [h|] eqn:Et; [|exact I].
    apply (tree_to_hierarchy_some d W) in Et. destruct Et as [Hh _].
    destruct (nth_error beta h) as [b|] eqn:Eb.
    2:{ apply nth_error_None in Eb. lia. }
    unfold at_or_ub. rewrite Eb. cbn [bind nth_error]. apply outcome_bind; [|intros; exact I].
    apply correction_outcome'; auto.
  - intros [g1 cw] _. apply outcome_bind; [apply IH; auto|]. intros [g2 cws] _. exact I.
Qed.

Lemma validate_rejects : forall alpha beta, keygen_args ps alpha beta -> validate_betas (d_params d) beta = Ok tt.
Proof.
  intros alpha beta [HF _].
  assert (HV : forall l bs, (forall h q b, nth_error l h = Some q -> nth_error bs h = Some b ->
                 validate_value (p_type q) b = Ok tt) -> validate_betas l bs = Ok tt).
  { induction l as [|q l IH]; intros [|b bs] HX; cbn [validate_betas]; auto.
    rewrite (HX 0%nat q b) by auto. cbn [bind]. apply IH. intros h q' b' Hq' Hb'. apply (HX (S h)); auto. }
  apply HV. intros h q b Hq Hb. destruct (created_param F ps types d HC h q Hq) as (p & Hp & Hty).
  assert (HX : exists T v, cty_ok T = true /\ denotes (p_type p) T /\ repr T b v).
  { clear - HF Hp Hb. revert h Hp Hb. induction HF as [|? ? ? ? ? ? IHF]; intros [|h] Hp Hb; try discriminate; cbn in Hp, Hb.
    - injection Hp as ->. injection Hb as ->. auto.
    - eauto. }
  destruct HX as (T' & v & Hok' & HD' & Hr). rewrite Hty.
  rewrite (validate_value_denotes T') by auto. eapply validate_value_repr; eauto.
Qed.

Lemma generate_keys_outcome : forall alpha beta s0 s1,
  outcome (keygen_args ps alpha beta) (generate_keys aes d alpha beta s0 s1).
Proof.
  intros alpha beta s0 s1. unfold generate_keys. pose proof (created_len _ _ _ _ HC) as HLen.
  destruct (Nat.eqb_spec (length beta) (nlevels d)) as [HL|HL]; cbn [check bind].
  2:{ left. split; [reflexivity|]. intros [HF _]. apply Forall2_length in HF. lia. }
  pose proof (validate_betas_ooi (d_params d) beta) as HO. pose proof (validate_rejects alpha beta) as HV.
  destruct (validate_betas (d_params d) beta) as [u|e| |]; cbn [bind]; try contradiction.
  2:{ left. split; [exact HO|]. intros HA. specialize (HV HA). discriminate. }
  destruct (negb (Nat.ltb (ld_last d) 128 && (2 ^ N.of_nat (ld_last d) <=? alpha))) eqn:EA; cbn [check bind].
  2:{ left. split; [reflexivity|]. intros [_ HA]. rewrite (created_last_ld _ _ _ _ HC) in HA.
      apply negb_false_iff, andb_true_iff in EA. destruct EA as [_ EA]. apply N.leb_le in EA. lia. }
  apply outcome_bind; [apply generate_loop_outcome; auto|]. intros [g cws] _. pose proof (wf_pos _ W).
  unfold at_or_ub. destruct (nth_error beta (nlevels d - 1)) as [b|] eqn:Eb.
  2:{ apply nth_error_None in Eb. lia. }
  cbn [bind]. apply outcome_bind; [|intros; exact I]. apply correction_outcome'; [exact Eb|lia].
Qed.
Lemma generated_supported : forall alpha beta s0 s1 ks, alpha < 2 ^ 128 -> generate_keys aes d alpha beta s0 s1 = Ok ks ->
  keygen_args ps alpha beta /\ forall h, (h < length ps)%nat -> supported_level ps types d h.
Proof.
  intros alpha beta s0 s1 [k0 k1] Ha HG. pose proof (created_len _ _ _ _ HC) as HL.
  destruct (generate_keys_level aes d W _ _ _ _ _ _ Ha HG) as (_ & _ & _ & _ & _ & _ & _ & Hlen & _ & Hal & HX).
  split; [split; [|rewrite (created_last_ld _ _ _ _ HC); auto]|].
  - assert (HFn : forall h p b, nth_error ps h = Some p -> nth_error beta h = Some b ->
       exists T v, cty_ok T = true /\ denotes (p_type p) T /\ repr T b v).
    { intros h p b Hp Hb. assert (Hh : (h < length ps)%nat) by (apply nth_error_Some; congruence).
      destruct (C01_levels_typed aes F ps types d alpha beta s0 s1 k0 k1 HC Ha HG h Hh) as (T & HT).
      destruct (share_prefix aes F ps types d HC alpha beta s0 s1 k0 k1 Ha HG h T HT)
        as (b' & v & corrs & Hb' & Hr & _). destruct HT as (Hok & p' & Hp' & HD).
      exists T, v. rewrite Hp in Hp'. injection Hp' as <-. rewrite Hb in Hb'. injection Hb' as <-. auto. }
    rewrite HL in Hlen. clear - HFn Hlen. revert beta Hlen HFn.
    induction ps as [|p l IH]; intros [|b bs] Hlen HFn; try discriminate; constructor.
    + apply (HFn 0%nat); auto.
    + apply IH; [cbn in Hlen; lia|]. intros h p' b' Hp' Hb'. apply (HFn (S h)); auto.
  - intros h Hh. destruct (HX h ltac:(lia)) as (g & b & _ & _ & HV & _).
    pose proof (correction_outcome h (g_seed0 g) (g_seed1 g) (N.shiftr alpha (N.of_nat (ld_last d - ld d h))) b (g_bit1 g) ltac:(lia)) as HO.
    rewrite HV in HO. exact HO.
Qed.
End Outcomes.

(** ** C07: every outcome of GenerateKeysIncremental *)

(** Keys are returned exactly for documented arguments when every level has a registered type with
    room.  Other arguments give INVALID_ARGUMENT, an unregistered type FAILED_PRECONDITION, and a type
    without room an abort; with several of these defects, it is one of the corresponding outcomes. *)
Theorem C07_exact : forall aes F ps types d alpha beta seed0 seed1,
  created F ps types d -> alpha < 2 ^ 128 ->
  match generate_keys aes d alpha beta seed0 seed1 with
  | Ok _ => keygen_args ps alpha beta /\ forall h, (h < length ps)%nat -> supported_level ps types d h
  | Err e => (e = INVALID_ARGUMENT /\ ~ keygen_args ps alpha beta) \/
             (e = FAILED_PRECONDITION /\ exists h, unknown_level ps types h)
  | Crash => exists h, cramped_level ps types d h
  | UB => False
  end.
Proof.
  intros aes F ps types d alpha beta seed0 seed1 HC Ha.
  pose proof (generate_keys_outcome aes F ps types d HC alpha beta seed0 seed1) as HO.
  pose proof (generated_supported aes F ps types d HC alpha beta seed0 seed1) as HG.
  destruct (generate_keys aes d alpha beta seed0 seed1) as [ks|e| |]; cbn in HO; auto. apply (HG ks); auto.
Qed.
Print Assumptions C07_exact.
(** So with documented arguments, an abort or FAILED_PRECONDITION tells that a level is not supported,
    and otherwise there are keys. *)
Theorem C07_documented : forall aes F ps types d alpha beta seed0 seed1,
  created F ps types d -> alpha < 2 ^ 128 -> keygen_args ps alpha beta ->
  (forall h, (h < length ps)%nat -> supported_level ps types d h) /\
    (exists k0 k1, generate_keys aes d alpha beta seed0 seed1 = Ok (k0, k1)) \/
  (exists h, unknown_level ps types h) /\ generate_keys aes d alpha beta seed0 seed1 = Err FAILED_PRECONDITION \/
  (exists h, cramped_level ps types d h) /\ generate_keys aes d alpha beta seed0 seed1 = Crash.
Proof.
  intros aes F ps types d alpha beta seed0 seed1 HC Ha HA.
  pose proof (C07_exact aes F ps types d alpha beta seed0 seed1 HC Ha) as HX.
  destruct (generate_keys aes d alpha beta seed0 seed1) as [[k0 k1]|e| |].
  - left. split; [apply HX|eauto].
  - destruct HX as [[_ HN]|[-> HU]]; [contradiction|]. right. left. auto.
  - right. right. auto.
  - contradiction.
Qed.
Print Assumptions C07_documented.
(** The claim that valid arguments of registered types are accepted is false: the type of C17's
    counterexample is registered, but key generation aborts. *)
Definition xk_bad : pvalue := to_value c17_bad (VTup [VTup [VNum 0]; VNum 0; VNum 0]).
Theorem C07_keygen_refuted : exists aes F ps types d alpha beta seed0 seed1,
  created F ps types d /\ registered ps types /\ keygen_args ps alpha beta /\
  generate_keys aes d alpha beta seed0 seed1 = Crash.
Proof.
  exists ex_aes, ex_F, c11_ps, [c17_bad], (ex_create ex_F c11_ps [c17_bad]), 5, [xk_bad], 1, 2.
  split; [|split; [|split]].
  - exists (ex_create ex_F c11_ps []). split; [vm_compute; reflexivity|]. split; [repeat constructor|reflexivity].
  - repeat constructor. exists c17_bad. split; [left; reflexivity|reflexivity].
  - split; [|reflexivity]. constructor; [|constructor]. exists c17_bad, (VTup [VTup [VNum 0]; VNum 0; VNum 0]).
    split; [reflexivity|]. split; [apply to_value_type_denotes; reflexivity|]. apply to_value_repr; reflexivity.
  - vm_compute. reflexivity.
Qed.
Print Assumptions C07_keygen_refuted.
(** Each outcome of [C07_exact]: keys, a wrong alpha, a type that is not registered, one without room. *)
Example C07_exact_nonvacuous :
  created ex_F ex_ps ex_types ex_d /\ is_ok (generate_keys ex_aes ex_d ex_alpha ex_beta 1 2) = true /\
  generate_keys ex_aes ex_d 512 ex_beta 1 2 = Err INVALID_ARGUMENT /\
  created ex_F ex_ps [] (ex_create ex_F ex_ps []) /\
  generate_keys ex_aes (ex_create ex_F ex_ps []) ex_alpha ex_beta 1 2 = Err FAILED_PRECONDITION /\
  unknown_level ex_ps [] 1 /\ supported_level ex_ps [] (ex_create ex_F ex_ps []) 0 /\
  cramped_level c11_ps [c17_bad] (ex_create ex_F c11_ps [c17_bad]) 0.
Proof.
  split; [exact ex_created|]. split; [vm_compute; reflexivity|]. split; [vm_compute; reflexivity|].
  split; [exists (ex_create ex_F ex_ps []); split; [vm_compute; reflexivity|]; split; [constructor|reflexivity]|].
  split; [vm_compute; reflexivity|]. split; [|split].
  - eexists. split; [reflexivity|]. intros T HT. cbn in HT. repeat (destruct HT as [<-|HT]; [discriminate|]). contradiction.
  - eexists. exists (TInt 8). split; [reflexivity|]. split; [cbn; tauto|]. split; [reflexivity|]. apply Nat.leb_le. vm_compute. reflexivity.
  - eexists. exists c17_bad. split; [reflexivity|]. split; [left; reflexivity|]. split; [reflexivity|]. apply Nat.ltb_lt. vm_compute. reflexivity.
Qed.
