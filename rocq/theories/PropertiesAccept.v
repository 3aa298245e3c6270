(** C89: which keys and evaluation contexts are accepted. *)
From Coq Require Import List NArith ZArith QArith Lia Bool ZifyBool ZifyNat ZifyN.
From Verif Require Import Base ListUtil ValueTypesModel ValueTypesSpec ValueTypesProofs ConvProofs BitsProofs TypeProofs
  DpfModel DpfTree DpfWf DpfGen DpfEval DpfPoint DpfCtx DpfSpec DpfHist DpfReach DpfExamples AcceptSpec.
Import ListNotations.
Open Scope N_scope.

(** ** Lemmas *)
Lemma same_type_equal : forall a b, same_type a b <-> value_types_are_equal a b = Ok true.
Proof.
  induction a as [|w|w m|w|ts IH] using ptype_ind'; intros b; split.
  - intros H. inversion H.
  - destruct b; discriminate.
  - intros H. inversion H; subst. cbn [value_types_are_equal]. rewrite Z.eqb_refl. reflexivity.
  - destruct b; cbn [value_types_are_equal]; intros H; try discriminate. inversion H as [E]. apply Z.eqb_eq in E. subst. constructor.
  - intros H. inversion H as [|w' i j n Hi Hj| |]; subst. cbn [value_types_are_equal].
    rewrite (proj2 (vinteger_to_uint128_encodes _ _) Hi), (proj2 (vinteger_to_uint128_encodes _ _) Hj). cbn [bind].
    rewrite Z.eqb_refl, N.eqb_refl. reflexivity.
  - destruct b as [| | |w' j|]; cbn [value_types_are_equal]; intros H; try discriminate.
    bind_inv H. bind_inv H. inversion H as [E]. apply andb_prop in E. destruct E as (E1 & E2).
    apply Z.eqb_eq in E1. apply N.eqb_eq in E2. subst.
    econstructor; apply vinteger_to_uint128_encodes; eassumption.
  - intros H. inversion H; subst. cbn [value_types_are_equal]. rewrite Z.eqb_refl. reflexivity.
  - destruct b; cbn [value_types_are_equal]; intros H; try discriminate. inversion H as [E]. apply Z.eqb_eq in E. subst. constructor.
  - intros H. inversion H as [| | |ts' us HF]; subst. cbn [value_types_are_equal].
    rewrite (Forall2_length _ _ _ _ _ HF), Nat.eqb_refl. clear H. induction HF as [|t u ts us Htu HF IHF]; [reflexivity|].
    fcons IH IHh IHt. cbn [types_equal_list]. rewrite (proj1 (IHh u) Htu). cbn [bind]. rewrite IHF by auto. reflexivity.
  - destruct b as [| |us| |]; cbn [value_types_are_equal]; intros H; try discriminate. constructor.
    destruct (Nat.eqb_spec (length ts) (length us)) as [HL|]; [|discriminate]. revert us HL H.
    induction ts as [|t ts IHts]; intros [|u us] HL H; try discriminate HL; [constructor|].
    fcons IH IHh IHt. cbn [types_equal_list] in H. bind_inv H. bind_inv H. inversion H as [E].
    apply andb_prop in E. destruct E as (-> & ->). constructor; [apply IHh; auto|apply IHts; auto].
Qed.

Lemma created_defaults : forall F ps types d, created F ps types d ->
  d_params d = map with_default_sec ps /\ validate_parameters_loop ps None = Ok tt.
Proof.
  intros F ps types d (d0 & Hc & _ & ->). pose proof (fold_register types d0) as HR. cbv zeta in HR. destruct HR as (HR & _).
  rewrite HR. unfold create_incremental in Hc. bind_inv Hc. destruct a as [[ps' needed] h2ts]. bind_inv Hc. inv Hc. cbn [d_params].
  unfold validator_create in Hb. bind_inv Hb. bind_inv Hb. destruct a1 as [? ?]. inv Hb.
  unfold validate_parameters in Hb1. bind_inv Hb1. destruct a0. auto.
Qed.

Lemma almost_near : forall x y, almost_equal (DFin x) (DFin y) = true <-> near x y.
Proof. intros x y. unfold almost_equal, near. rewrite andb_true_iff, !Qle_bool_iff. reflexivity. Qed.

Lemma near_eq : forall x y z, (y == z)%Q -> near x y <-> near x z.
Proof. intros x y z H. unfold near. rewrite H. reflexivity. Qed.

(** The security parameter kept by Create. *)
Lemma kept_security : forall p x0, p_sec p = DFin x0 -> (0 <= p_ld p)%Z ->
  exists x, asks p x /\ p_sec (with_default_sec p) = DFin x /\ ~ (x == 0)%Q /\ (forall x', asks p x' -> x' = x).
Proof.
  intros p x0 Hx HL. unfold with_default_sec. rewrite Hx. unfold dbl_is_zero. destruct (Qeq_bool x0 0) eqn:E.
  - apply Qeq_bool_iff in E. exists (inject_Z (40 + p_ld p)). split; [eapply asks_default; eauto|]. split; [reflexivity|].
    split; [|intros x' HA; destruct HA as [x Hx' Hn|]; [|reflexivity]; congruence].
    unfold Qeq, inject_Z. cbn. lia.
  - apply Qeq_bool_neq in E. exists x0. split; [constructor; auto|]. split; [exact Hx|]. split; [exact E|].
    intros x' HA. destruct HA as [x Hx' Hn|x Hx' Hz]; congruence.
Qed.

Lemma parameters_equal_iff : forall p c x0 t, p_sec p = DFin x0 -> (0 <= p_ld p)%Z -> p_vt p = Some t ->
  parameters_are_equal (with_default_sec p) c = Ok true <-> same_parameters p c.
Proof.
  intros p c x0 t Hx HL Ht. destruct (kept_security p x0 Hx HL) as (x & HA & Hk & Hnz & HU).
  assert (Hld : p_ld (with_default_sec p) = p_ld p) by (unfold with_default_sec; destruct (dbl_is_zero (p_sec p)); reflexivity).
  assert (Hty : p_type (with_default_sec p) = t).
  { unfold p_type, with_default_sec. destruct (dbl_is_zero (p_sec p)); cbn [p_vt]; rewrite Ht; reflexivity. }
  unfold parameters_are_equal. rewrite Hld, Hty, Hk. unfold default_sec at 2. rewrite Hld.
  assert (Hz : dbl_is_zero (DFin x) = false).
  { cbn. destruct (Qeq_bool x 0) eqn:E; [|reflexivity]. apply Qeq_bool_iff in E. contradiction. }
  rewrite Hz. cbn [andb]. rewrite orb_false_r.
  assert (HSec : almost_equal (DFin x) (p_sec c) || (dbl_is_zero (p_sec c) && almost_equal (DFin x) (DFin (inject_Z (40 + p_ld p)))) = true <->
    exists x' y, asks p x' /\ p_sec c = DFin y /\ (near x' y \/ (y == 0)%Q /\ near x' (inject_Z (40 + p_ld p)))).
  { split.
    - intros H. destruct (p_sec c) as [|s|y]; [cbn in H; discriminate H|cbn in H; discriminate H|]. exists x, y. split; [exact HA|]. split; [reflexivity|].
      apply orb_prop in H. destruct H as [H|H]; [left; apply almost_near; exact H|right].
      apply andb_prop in H. destruct H as (H1 & H2). split; [apply Qeq_bool_iff; exact H1|apply almost_near; exact H2].
    - intros (x' & y & HA' & Hy & H). rewrite (HU _ HA') in H. rewrite Hy. apply orb_true_iff.
      destruct H as [H|(H1 & H2)]; [left; apply almost_near; exact H|right]. apply andb_true_iff.
      split; [apply Qeq_bool_iff; exact H1|apply almost_near; exact H2]. }
  split.
  - intros H. destruct (Z.eqb_spec (p_ld p) (p_ld c)) as [E|]; [|discriminate]. cbn [negb] in H.
    destruct (almost_equal _ _ || _) eqn:ES; [|discriminate]. cbn [negb] in H.
    constructor; [auto|apply HSec; reflexivity|]. unfold p_type in H. destruct (p_vt c) as [u|]; [|destruct t; discriminate].
    exists t, u. split; [auto|]. split; [auto|]. apply same_type_equal. exact H.
  - intros [HD HS (t' & u & Ht' & Hu & HT)]. apply HSec in HS. rewrite HD, Z.eqb_refl, HS. cbn [negb].
    unfold p_type. rewrite Hu. apply same_type_equal. congruence.
Qed.

Lemma valid_parameter : forall ps i p, validate_parameters_loop ps None = Ok tt -> nth_error ps i = Some p ->
  exists x t, p_sec p = DFin x /\ (0 <= p_ld p)%Z /\ p_vt p = Some t.
Proof.
  intros ps i p HV Hi. destruct (validate_parameters_loop_inv _ _ HV i p Hi) as (HL & (t & Ht & _) & _ & _ & H1 & H2 & H3).
  destruct (p_sec p) as [|[|]|x]; cbn in *; try discriminate. exists x, t. split; [reflexivity|]. split; [lia|exact Ht].
Qed.

Lemma parameters_match_iff : forall ps cs,
  (forall p, In p ps -> exists x t, p_sec p = DFin x /\ (0 <= p_ld p)%Z /\ p_vt p = Some t) ->
  (length cs = length ps /\ parameters_match (map with_default_sec ps) cs = Ok tt) <-> Forall2 same_parameters ps cs.
Proof.
  induction ps as [|p ps IH]; intros [|c cs] HP.
  - split; [constructor|]. split; reflexivity.
  - split; [intros (H & _); discriminate|intros H; inversion H].
  - split; [intros (H & _); discriminate|intros H; inversion H].
  - destruct (HP p (or_introl eq_refl)) as (x & t & Hx & HL & Ht).
    pose proof (parameters_equal_iff p c x t Hx HL Ht) as HE.
    assert (HP' : forall q, In q ps -> exists x t, p_sec q = DFin x /\ (0 <= p_ld q)%Z /\ p_vt q = Some t) by (intros q Hq; apply HP; right; auto).
    specialize (IH cs HP'). cbn [map parameters_match length]. split.
    + intros (HLen & HM). bind_inv HM. bind_inv HM. apply check_ok in Hb0. destruct a; [|discriminate].
      constructor; [apply HE; exact Hb|]. apply IH. split; [lia|exact HM].
    + intros H. inversion H as [|? ? ? ? Hpc HF]; subst. apply HE in Hpc. apply IH in HF. destruct HF as (HF1 & HF2).
      split; [lia|]. rewrite Hpc. cbn [bind check]. exact HF2.
Qed.

Lemma key_shape_iff : forall F ps types d key, created F ps types d ->
  key_shape ps d key <-> validate_dpf_key d key = Ok tt.
Proof.
  intros F ps types d key HC. destruct (created_wf _ _ _ _ HC) as (W & _). pose proof (created_len _ _ _ _ HC) as HL.
  pose proof (wf_levels _ W) as HLv. pose proof (wf_pos _ W) as HPos. pose proof (wf_len _ W) as HLen. unfold h2t in HLv. rewrite HL in *.
  unfold validate_dpf_key. split.
  - intros [HS HLa HCw HV]. destruct (k_seed key) as [s|]; [|congruence]. cbn [check bind].
    destruct (k_last key) as [|v l]; [congruence|]. cbn [length Nat.eqb negb check bind].
    replace (Z.of_nat (length (k_cws key)) =? Z.of_nat (d_levels d) - 1)%Z with true by lia. cbn [check bind].
    assert (HI : forall t, In t (d_h2t d) -> (if (Z.of_nat t =? Z.of_nat (d_levels d) - 1)%Z then Ok tt else
      cw <- at_or_ub (k_cws key) t ;; check (negb (Nat.eqb (length (cw_values cw)) 0)) INVALID_ARGUMENT) = Ok tt).
    { intros t Ht. apply (In_nth _ _ 0%nat) in Ht. destruct Ht as (h & Hh & Hth). rewrite HLen in Hh.
      destruct (Z.eqb_spec (Z.of_nat t) (Z.of_nat (d_levels d) - 1)) as [|E]; [reflexivity|].
      assert (Hh' : (h < length ps - 1)%nat). { destruct (Nat.eq_dec h (length ps - 1)) as [->|]; lia. }
      destruct (HV h Hh') as (cw & Hcw & Hne). rewrite Hth in Hcw. unfold at_or_ub. rewrite Hcw. cbn [bind].
      destruct (cw_values cw); [congruence|reflexivity]. }
    apply iterM_ok, Forall_forall. exact HI.
  - intros H. bind_inv H. bind_inv H. bind_inv H. apply check_ok in Hb. apply check_ok in Hb0. apply check_ok in Hb1.
    constructor.
    + destruct (k_seed key); congruence.
    + destruct (k_last key); [discriminate|congruence].
    + lia.
    + intros h Hh. rewrite iterM_ok, Forall_forall in H. assert (Hlt : (h < length (d_h2t d))%nat) by lia.
      specialize (H _ (nth_In _ 0%nat Hlt)). pose proof (wf_h2t_mono _ W h (length ps - 1)) as HM. rewrite HL in HM. unfold h2t in HM.
      destruct (Z.eqb_spec (Z.of_nat (nth h (d_h2t d) 0%nat)) (Z.of_nat (d_levels d) - 1)) as [E|E]; [lia|].
      unfold at_or_ub in H. destruct (nth_error (k_cws key) _) as [cw|]; [|discriminate]. exists cw. split; [reflexivity|].
      cbn [bind] in H. apply check_ok in H. destruct (cw_values cw); [discriminate|congruence].
Qed.

Lemma accepted_iff : forall F ps types d c, created F ps types d ->
  accepted_context ps d c <-> validate_evaluation_context d c = Ok tt.
Proof.
  intros F ps types d c HC. destruct (created_defaults _ _ _ _ HC) as (HD & HV).
  assert (HLen : length (d_params d) = length ps) by (rewrite HD; apply map_length).
  assert (HP : forall p, In p ps -> exists x t, p_sec p = DFin x /\ (0 <= p_ld p)%Z /\ p_vt p = Some t).
  { intros p Hp. apply In_nth_error in Hp. destruct Hp as (i & Hi). eapply valid_parameter; eauto. }
  pose proof (parameters_match_iff ps (c_params c) HP) as HM. rewrite <- HD in HM.
  unfold validate_evaluation_context. rewrite HLen. split.
  - intros [HPa (key & Hk & HS) HPr HPl]. apply HM in HPa. destruct HPa as (HL & HPa).
    rewrite HL, Nat.eqb_refl, HPa, Hk. cbn [check bind]. apply (key_shape_iff F ps types) in HS; [|exact HC]. rewrite HS. cbn [bind].
    replace (negb (Z.of_nat (length ps) - 1 <=? c_prev c)%Z) with true by lia. cbn [check bind].
    destruct HPl as [->|HPl]; [reflexivity|]. replace (c_prev c <? c_plevel c)%Z with false by lia. rewrite andb_false_r. reflexivity.
  - intros H. bind_inv H. apply check_ok, Nat.eqb_eq in Hb. bind_inv H. destruct a0. bind_inv H. bind_inv H. bind_inv H.
    apply check_ok in Hb3. apply check_ok in H. constructor.
    + apply HM. split; [exact Hb|exact Hb0].
    + destruct (c_key c) as [k|]; inv Hb1. exists a0. split; [reflexivity|]. apply (key_shape_iff F ps types); [exact HC|]. destruct a1. exact Hb2.
    + lia.
    + destruct (c_partials c) as [|e l]; [left; reflexivity|right]. cbn [length Nat.eqb negb andb] in H. lia.
Qed.

(** ** Theorems *)

(** Every key is either of the expected shape, and then CreateEvaluationContext makes a context of
    it, or it is rejected by every function that takes a key. *)
Theorem C89_keys : forall F ps types d key, created F ps types d ->
  (key_shape ps d key /\ exists c, create_evaluation_context d key = Ok c) \/
  (~ key_shape ps d key /\ create_evaluation_context d key = Err INVALID_ARGUMENT /\
   (forall aes T h points, evaluate_at aes d T key h points = Err INVALID_ARGUMENT) /\
   (forall aes T h points c, c_key c = Some key -> evaluate_at_ctx aes d T h points c = (Err INVALID_ARGUMENT, c)) /\
   (forall aes S T keys points (op : S -> list cval -> S * bool) rs s, In key keys ->
      evaluate_and_apply aes d T keys points op rs s = Err INVALID_ARGUMENT)).
Proof.
  intros F ps types d key HC. destruct (created_wf _ _ _ _ HC) as (W & _). pose proof (key_shape_iff F ps types d key HC) as HK.
  pose proof (validate_dpf_key_ooi d key W) as HO. unfold create_evaluation_context.
  destruct (validate_dpf_key d key) as [[]|e| |] eqn:EV; cbn [ok_or_invalid] in HO; try contradiction.
  - left. split; [apply HK; reflexivity|]. eexists. reflexivity.
  - right. subst e. split; [rewrite HK; discriminate|]. split; [reflexivity|].
    assert (HC' : forall h points, evaluate_at_checks d key h points = Err INVALID_ARGUMENT).
    { intros h points. apply ooi_not_ok.
      - unfold evaluate_at_checks. do 2 (apply ooi_bind; [apply ooi_check|intros _ _]).
        apply ooi_bind; [apply ooi_iterM; intros; apply ooi_check|]. intros _ _. rewrite EV. reflexivity.
      - intros u H. unfold evaluate_at_checks in H. bind_inv H. bind_inv H. bind_inv H. congruence. }
    split; [|split].
    + intros aes T h points. unfold evaluate_at. rewrite HC'. reflexivity.
    + intros aes T h points c Hk. unfold evaluate_at_ctx, ctx_key. rewrite Hk, HC'. reflexivity.
    + intros aes S T keys points op rs s HI. unfold evaluate_and_apply. destruct (Nat.eqb (length points) (length keys)); [|reflexivity].
      cbn [check bind]. assert (HX : iterM (validate_dpf_key d) keys = Err INVALID_ARGUMENT).
      { apply ooi_not_ok; [apply ooi_iterM; intros; apply validate_dpf_key_ooi; auto|]. intros [] H.
        rewrite iterM_ok, Forall_forall in H. specialize (H _ HI). congruence. }
      rewrite HX. reflexivity.
Qed.
Print Assumptions C89_keys.

(** EvaluateUntil and EvaluateNext go on exactly with the contexts made for the parameters of the
    DPF; all others are rejected and stay as they were.  Missing from C89: EvaluateAt, which does
    not compare the parameters (C89_evaluate_at, C89_evaluate_at_refuted). *)
Theorem C89_contexts_partial : forall F ps types d c, created F ps types d ->
  (accepted_context ps d c <-> validate_evaluation_context d c = Ok tt) /\
  (~ accepted_context ps d c -> validate_evaluation_context d c = Err INVALID_ARGUMENT /\
   forall aes T prefixes, (forall h, evaluate_until aes d T h prefixes c = (Err INVALID_ARGUMENT, c)) /\
     evaluate_next aes d T prefixes c = (Err INVALID_ARGUMENT, c)).
Proof.
  intros F ps types d c HC. pose proof (accepted_iff F ps types d c HC) as HA. split; [exact HA|]. intros HN.
  assert (HX : validate_evaluation_context d c = Err INVALID_ARGUMENT).
  { apply ooi_not_ok; [apply validate_context_ooi; exact (proj1 (created_wf _ _ _ _ HC))|]. intros [] H. apply HN, HA, H. }
  split; [exact HX|]. intros aes T prefixes.
  assert (HU : forall h, evaluate_until aes d T h prefixes c = (Err INVALID_ARGUMENT, c)).
  { intros h. unfold evaluate_until, evaluate_until_checks. rewrite HX. reflexivity. }
  split; [exact HU|]. unfold evaluate_next. destruct (Nat.eqb (length prefixes) 0); apply HU.
Qed.
Print Assumptions C89_contexts_partial.

(** The context that CreateEvaluationContext makes of a key is accepted. *)
Theorem C89_fresh : forall F ps types d key c, created F ps types d ->
  (forall k, (k < length ps)%nat -> exists T, level_has ps k T) ->
  create_evaluation_context d key = Ok c -> accepted_context ps d c.
Proof.
  intros F ps types d key c HC HT H. apply (accepted_iff F ps types); [exact HC|]. destruct (created_defaults _ _ _ _ HC) as (HD & HV).
  pose proof (created_params_match _ _ _ _ HC HT) as HM. pose proof (wf_pos _ (proj1 (created_wf _ _ _ _ HC))) as HPos. unfold nlevels in HPos.
  unfold create_evaluation_context in H. bind_inv H. inv H. destruct a. unfold validate_evaluation_context. cbn [c_params c_key c_prev c_partials c_plevel].
  rewrite Nat.eqb_refl, HM. cbn [check bind]. rewrite Hb. cbn [bind]. replace (Z.of_nat (length (d_params d)) - 1 <=? -1)%Z with false by lia. reflexivity.
Qed.
Print Assumptions C89_fresh.

(** EvaluateAt on a context compares nothing but the key: its result is the same whatever
    parameters and previous level the context has. *)
Theorem C89_evaluate_at : forall aes d T h points c params prev,
  fst (evaluate_at_ctx aes d T h points {| c_params := params; c_key := c_key c; c_prev := prev;
         c_partials := c_partials c; c_plevel := c_plevel c |})
  = fst (evaluate_at_ctx aes d T h points c).
Proof.
  intros aes d T h points c params prev.
  assert (HP : forall prefixes h' u, (x <- compute_partial_evaluations aes d prefixes h' u {| c_params := params; c_key := c_key c; c_prev := prev;
         c_partials := c_partials c; c_plevel := c_plevel c |} ;; Ok (fst x)) = (x <- compute_partial_evaluations aes d prefixes h' u c ;; Ok (fst x))).
  { intros prefixes h' u. unfold compute_partial_evaluations, ctx_key. cbn [c_key c_partials c_plevel c_params c_prev].
    destruct (atz_or_ub (d_h2t d) (c_plevel c)) as [s|e| |]; try reflexivity. cbn [bind].
    destruct (at_or_ub (d_h2t d) h') as [t|e| |]; try reflexivity. cbn [bind].
    match goal with |- bind (bind ?r _) _ = _ => destruct r as [[st sl]|e| |]; try reflexivity end. cbn [bind].
    match goal with |- bind (bind ?r _) _ = _ => destruct r as [cws|e| |]; try reflexivity end. cbn [bind].
    match goal with |- bind (bind ?r _) _ = _ => destruct r as [st'|e| |]; reflexivity end. }
  unfold evaluate_at_ctx, ctx_key. cbn [c_key].
  destruct (evaluate_at_checks d _ h points) as [u|e| |]; try reflexivity. destruct (Nat.eqb (length points) 0); [reflexivity|].
  specialize (HP (evaluate_at_indices d T (Z.to_nat h) points) (Z.to_nat h) true).
  destruct (compute_partial_evaluations aes d _ _ true _) as [[st c1]|e| |];
    destruct (compute_partial_evaluations aes d _ _ true c) as [[st' c1']|e'| |]; cbn [bind fst] in HP; inversion HP; subst; try reflexivity.
  destruct (evaluate_at_finish _ _ _ _ _ _ _ _ _) as [r|e| |]; reflexivity.
Qed.
Print Assumptions C89_evaluate_at.

(** A DPF with two levels, one with a single level of the same domain, and a context of the
    first. *)
Definition two_levels : list param :=
  [{| p_ld := 5; p_vt := Some (PTInteger 128); p_sec := DFin 0 |}; {| p_ld := 10; p_vt := Some (PTInteger 128); p_sec := DFin 0 |}].
Definition one_level : list param := [{| p_ld := 10; p_vt := Some (PTInteger 128); p_sec := DFin 0 |}].
Definition d_two : dpf := Eval vm_compute in ex_create ex_F two_levels [].
Definition d_one : dpf := Eval vm_compute in ex_create ex_F one_level [].
Definition k_two : dkey := Eval vm_compute in
  match generate_keys ex_aes d_two 777 [PVInteger (VI64 3); PVInteger (VI64 4)] 11 12 with Ok (k, _) => k | _ => default_key end.
Definition c_two : ectx := Eval vm_compute in
  match create_evaluation_context d_two k_two with Ok c => c | _ => {| c_params := []; c_key := None; c_prev := 0; c_partials := []; c_plevel := 0 |} end.
Lemma two_created : created ex_F two_levels [] d_two.
Proof. exists d_two. repeat split. constructor. Qed.
Lemma one_created : created ex_F one_level [] d_one.
Proof. exists d_one. repeat split. constructor. Qed.

(** Unlike EvaluateUntil, EvaluateAt evaluates the context of another DPF. *)
Theorem C89_evaluate_at_refuted : exists aes F ps ps' d d' key c T h points v,
  created F ps [] d /\ created F ps' [] d' /\ create_evaluation_context d' key = Ok c /\ ~ accepted_context ps d c /\
  evaluate_until aes d T h [] c = (Err INVALID_ARGUMENT, c) /\ fst (evaluate_at_ctx aes d T h points c) = Ok v /\ points <> [].
Proof.
  exists ex_aes, ex_F, one_level, two_levels, d_one, d_two, k_two, c_two, (TInt 128), 0%Z, [5; 777]. eexists.
  split; [exact one_created|]. split; [exact two_created|]. split; [vm_compute; reflexivity|].
  split; [intros [HP _ _ _]; inversion HP as [|? ? ? ? _ HX]; inversion HX|]. split; [vm_compute; reflexivity|].
  split; [vm_compute; reflexivity|discriminate].
Qed.
Print Assumptions C89_evaluate_at_refuted.

(** The context with another security parameter for the first level. *)
Definition with_sec (x : dbl) : ectx :=
  {| c_params := {| p_ld := 5; p_vt := Some (PTInteger 128); p_sec := x |} :: tl (c_params c_two);
     c_key := c_key c_two; c_prev := -1; c_partials := []; c_plevel := 0 |}.
Example C89_nonvacuous :
  key_shape two_levels d_two k_two /\ accepted_context two_levels d_two c_two /\
  accepted_context two_levels d_two (with_sec (DFin 0)) /\ accepted_context two_levels d_two (with_sec (DFin (4500009 # 100000))) /\
  ~ accepted_context two_levels d_two (with_sec (DFin (45001 # 1000))) /\ ~ accepted_context two_levels d_two (with_sec DNaN) /\
  ~ key_shape two_levels d_two {| k_seed := Some 1; k_cws := tl (k_cws k_two); k_party := 0; k_last := k_last k_two |} /\
  (forall x, x = DFin (45001 # 1000) -> evaluate_next ex_aes d_two (TInt 128) [] (with_sec x) = (Err INVALID_ARGUMENT, with_sec x)).
Proof.
  pose proof (fun c => proj1 (C89_contexts_partial ex_F two_levels [] d_two c two_created)) as HA.
  pose proof (fun k => key_shape_iff ex_F two_levels [] d_two k two_created) as HK.
  split; [apply HK; vm_compute; reflexivity|]. do 3 (split; [apply HA; vm_compute; reflexivity|]).
  do 2 (split; [rewrite HA; vm_compute; discriminate|]). split; [rewrite HK; vm_compute; discriminate|].
  intros x ->. vm_compute. reflexivity.
Qed.
