(** Properties of the distributed point function: C01-C06
    (PropertiesDpfApi.v: C07-C13; PropertiesDpfTree.v: C19, C21-C23, C46).

    Vocabulary: [created F ps types d] - [d] was returned by CreateIncremental for the
    parameters [ps] followed by RegisterValueType for [types] (DpfWf.v); [level_has ps h T]
    - the caller declared the type [T] for level [h]; [gsum] - addition in the value group
    (ValueTypesSpec.v); [repr T b v] - the Value proto [b] represents [v]; everything else
    is in DpfSpec.v.  [aes] (the block cipher) and [F] (floating-point logarithms) are
    arbitrary in every theorem. *)
From Coq Require Import List NArith ZArith QArith Lia Bool ZifyBool ZifyNat ZifyN.
From Verif Require Import Base ListUtil ValueTypesModel ValueTypesSpec ValueTypesProofs
  ConvProofs BitsProofs TypeProofs DpfModel DpfTree DpfWf DpfGen DpfEval DpfPoint DpfCtx DpfApply
  DpfSpec DpfHist DpfReach DpfSafe DpfCreate DpfFacts DpfExamples PropertiesValueTypes.
Import ListNotations.
Ltac Zify.zify_post_hook ::= Z.div_mod_to_equations.
Open Scope N_scope.

(** ** C01: EvaluateAt shares reconstruct the point function at every level *)
Theorem C01_evaluate_at_shares : forall aes F ps types d alpha beta seed0 seed1 k0 k1,
  created F ps types d -> alpha < 2 ^ 128 ->
  generate_keys aes d alpha beta seed0 seed1 = Ok (k0, k1) ->
  forall h T, level_has ps h T ->
  exists b v, nth_error beta h = Some b /\ repr T b v /\
    forall points, Forall (fun x => x < 2 ^ level_ld ps h) points ->
      exists r0 r1, evaluate_at aes d T k0 (Z.of_nat h) points = Ok r0 /\
        evaluate_at aes d T k1 (Z.of_nat h) points = Ok r1 /\
        reconstruct T (alpha_prefix ps alpha h) v points r0 r1.
Proof.
  intros aes F ps types d alpha beta seed0 seed1 k0 k1 HC Ha HG.
  exact (point_shares aes F ps types d HC alpha beta seed0 seed1 k0 k1 Ha HG).
Qed.
Print Assumptions C01_evaluate_at_shares.
(** Every level of a DPF for which keys could be generated has a type. *)
Theorem C01_levels_typed : forall aes F ps types d alpha beta seed0 seed1 k0 k1,
  created F ps types d -> alpha < 2 ^ 128 ->
  generate_keys aes d alpha beta seed0 seed1 = Ok (k0, k1) ->
  forall h, (h < length ps)%nat -> exists T, level_has ps h T.
Proof.
  intros aes F ps types d alpha beta seed0 seed1 k0 k1 HC Ha HG.
  exact (gen_all_typed aes F ps types d HC alpha beta seed0 seed1 k0 k1 Ha HG).
Qed.
Print Assumptions C01_levels_typed.
Example C01_nonvacuous :
  alpha_prefix ex_ps ex_alpha 1 = 37 /\
  match evaluate_at ex_aes ex_d ex_tuple ex_k0 1 [36; 37; 38],
        evaluate_at ex_aes ex_d ex_tuple ex_k1 1 [36; 37; 38] return Prop with
  | Ok r0, Ok r1 => zip2 (vadd ex_tuple) r0 r1 = [VTup [VNum 0; VNum 0]; VTup [VNum 1234; VNum 999999]; VTup [VNum 0; VNum 0]]
                    /\ nth 0 r0 (VNum 0) <> VTup [VNum 0; VNum 0]
  | _, _ => False
  end.
Proof. vm_compute. repeat split; discriminate. Qed.

(** ** C02: hierarchical evaluation reconstructs the point function for every history *)
Theorem C02_histories : forall aes F ps types d alpha beta seed0 seed1 k0 k1 c0 c1 ks,
  created F ps types d -> alpha < 2 ^ 128 ->
  generate_keys aes d alpha beta seed0 seed1 = Ok (k0, k1) ->
  create_evaluation_context d k0 = Ok c0 -> create_evaluation_context d k1 = Ok c1 ->
  valid_history ps d None (fun _ => True) ks ->
  history_reconstructs ps alpha beta None ks (run_calls aes d c0 ks) (run_calls aes d c1 ks).
Proof.
  intros aes F ps types d alpha beta seed0 seed1 k0 k1 c0 c1 ks HC Ha HG H0 H1 HV.
  assert (HTy : all_typed ps) by (eapply gen_all_typed; eauto).
  rewrite (history_until_at aes F ps types d HC k0 c0 ks HTy H0 HV).
  2:{ intros. eapply gen_enough; eauto. }
  rewrite (history_until_at aes F ps types d HC k1 c1 ks HTy H1 HV).
  2:{ intros. eapply gen_enough; eauto. }
  eapply history_at with (allowed := fun _ => True); eauto.
Qed.
Print Assumptions C02_histories.
(** Calls whose levels are at most 26 bits apart and that do not have too many prefixes
    meet the memory condition in [valid_history]. *)
Theorem C02_small_gaps : forall F ps types d prev h prefixes, created F ps types d ->
  (forall k, (k < length ps)%nat -> exists T, level_has ps k T) ->
  (h < length ps)%nat -> match prev with None => True | Some q => (q < h)%nat end ->
  gap ps prev h <= 26 -> N.of_nat (Nat.max 1 (length prefixes)) * 2 ^ (gap ps prev h + 4) < 2 ^ 60 ->
  expansion_fits d prev h prefixes.
Proof. exact small_gap_fits. Qed.
Print Assumptions C02_small_gaps.
Definition ex_calls : list call := [Until 0 (TInt 8) []; Next ex_tuple [2; 1]; Until 2 (TInt 64) [37; 16; 37]].
Example C02_nonvacuous :
  valid_history ex_ps ex_d None (fun _ => True) ex_calls /\
  match create_evaluation_context ex_d ex_k0, create_evaluation_context ex_d ex_k1 return Prop with
  | Ok c0, Ok c1 =>
      match run_calls ex_aes ex_d c0 ex_calls, run_calls ex_aes ex_d c1 ex_calls return Prop with
      | [_; Ok a1; Ok a2], [_; Ok b1; Ok b2] =>
          nth 5 (zip2 (vadd ex_tuple) a1 b1) (VNum 0) = VTup [VNum 1234; VNum 999999] /\
          map (fun v => match v with VNum n => n | _ => 99 end) (zip2 (vadd (TInt 64)) a2 b2)
          = [0;0;0;0;42;0;0;0; 0;0;0;0;0;0;0;0; 0;0;0;0;42;0;0;0]
      | _, _ => False
      end
  | _, _ => False
  end.
Proof.
  split.
  - unfold ex_calls. constructor; cbn [call_level call_prefixes call_type]; auto using ex_level_0.
    + vm_compute. reflexivity.
    + vm_compute. reflexivity.
    + split; [|vm_compute; reflexivity]. vm_compute. lia.
    + constructor; cbn [call_level call_prefixes call_type]; auto using ex_level_1.
      * split; [auto|]. split; [discriminate|]. apply all_in. vm_compute. reflexivity.
      * vm_compute. reflexivity.
      * vm_compute. reflexivity.
      * split; [|vm_compute; reflexivity]. vm_compute. lia.
      * constructor; cbn [call_level call_prefixes call_type]; auto using ex_level_2.
        -- split; [auto|]. split; [discriminate|]. apply all_in. vm_compute. reflexivity.
        -- vm_compute. reflexivity.
        -- vm_compute. reflexivity.
        -- split; [|vm_compute; reflexivity]. vm_compute. lia.
        -- constructor.
  - vm_compute. auto.
Qed.

(** ** C03: EvaluateAndApply reconstructs the point function level by level *)
Theorem C03_apply_shares : forall aes F ps types d T (gs : list gen_pair) points rs,
  created F ps types d -> (forall h, (h < length ps)%nat -> level_has ps h T) ->
  Forall (generated aes d) gs -> length points = length gs ->
  Forall (fun x => x < 2 ^ 128 /\ x < 2 ^ (N.of_nat rs + last_ld ps)) points ->
  N.of_nat (length gs) * (last_ld ps + 1) < 2 ^ 31 ->
  exists vss0 vss1 : list (list cval), length vss0 = length ps /\ length vss1 = length ps /\
    (** the callback sees exactly these values, level by level, until it returns false *)
    (forall S (op : S -> list cval -> S * bool) s,
       evaluate_and_apply aes d T (map gp_key0 gs) points op rs s = Ok (run_op op s vss0)) /\
    (forall S (op : S -> list cval -> S * bool) s,
       evaluate_and_apply aes d T (map gp_key1 gs) points op rs s = Ok (run_op op s vss1)) /\
    (** and they reconstruct to the point functions *)
    forall h vs0 vs1, nth_error vss0 h = Some vs0 -> nth_error vss1 h = Some vs1 ->
      length vs0 = length gs /\ length vs1 = length gs /\
      forall i g x v0 v1, nth_error gs i = Some g -> nth_error points i = Some x ->
        nth_error vs0 i = Some v0 -> nth_error vs1 i = Some v1 ->
        exists b v, nth_error (gp_beta g) h = Some b /\ repr T b v /\
          gsum T v0 v1 (point_function T (alpha_prefix ps (gp_alpha g) h) v
                          (x / 2 ^ (N.of_nat rs + last_ld ps - level_ld ps h))).
Proof.
  intros aes F ps types d T gs points rs HC HT HG HL HP HN.
  destruct (created_wf _ _ _ _ HC) as (W & _).
  set (pt := fun (h : nat) x => x / 2 ^ (N.of_nat rs + last_ld ps - level_ld ps h)).
  set (val := fun (sel : gen_pair -> dkey) h (gx : gen_pair * N) =>
         r <- evaluate_at aes d T (sel (fst gx)) (Z.of_nat h) [pt h (snd gx)] ;; Ok (hd (vzero T) r)).
  assert (HPS : forall h gx, (h < length ps)%nat -> In gx (combine gs points) ->
     exists b v v0 v1, nth_error (gp_beta (fst gx)) h = Some b /\ repr T b v /\
       val gp_key0 h gx = Ok v0 /\ val gp_key1 h gx = Ok v1 /\
       gsum T v0 v1 (point_function T (alpha_prefix ps (gp_alpha (fst gx)) h) v (pt h (snd gx)))).
  { intros h [g x] Hh Hin. pose proof (in_combine_l _ _ _ _ Hin) as Hg. pose proof (in_combine_r _ _ _ _ Hin) as Hx.
    rewrite Forall_forall in HG, HP. destruct (HG g Hg) as (Ha & s0 & s1 & Hgen). destruct (HP x Hx) as (_ & Hxr).
    cbn [fst snd].
    destruct (point_shares aes F ps types d HC _ _ _ _ _ _ Ha Hgen h T (HT h Hh)) as (b & v & Hb & Hr & HX).
    destruct (HX [pt h x]) as (r0 & r1 & H0 & H1 & HR).
    { constructor; auto. unfold pt.
      assert (level_ld ps h <= last_ld ps). { unfold last_ld. apply (ld_mono F ps types d HC); lia. }
      apply N.div_lt_upper_bound; [apply N.pow_nonzero; lia|]. rewrite <- N.pow_add_r.
      replace (N.of_nat rs + last_ld ps - level_ld ps h + level_ld ps h) with (N.of_nat rs + last_ld ps) by lia. auto. }
    unfold reconstruct in HR. cbn [map] in HR. inversion HR as [|v0 v1 v2 l0 l1 l2 HR1 HR2]. subst. inversion HR2. subst.
    exists b, v, v0, v1. unfold val. cbn [fst snd]. rewrite H0, H1. cbn [bind hd]. auto. }
  assert (HM : forall sel, (forall h gx, (h < length ps)%nat -> In gx (combine gs points) -> exists w, val sel h gx = Ok w) ->
     exists vss, mapM (fun h => mapM (val sel h) (combine gs points)) (seq 0 (length ps)) = Ok vss).
  { intros sel Hsel. assert (HMt : forall A B (f : A -> res B) l, (forall a, In a l -> exists b, f a = Ok b) -> exists bs, mapM f l = Ok bs).
    { clear. induction l as [|a l IH]; intros H; cbn [mapM]; eauto. destruct (H a) as (b & ->); [left; auto|].
      destruct IH as (bs & ->); [intros; apply H; right; auto|]. cbn [bind]. eauto. }
    apply HMt. intros h Hh. apply in_seq in Hh. apply HMt. intros gx Hgx. apply Hsel; auto. lia. }
  destruct (HM gp_key0) as (vss0 & HM0).
  { intros h gx Hh Hin. destruct (HPS h gx Hh Hin) as (b & v & v0 & v1 & _ & _ & H0 & _). eauto. }
  destruct (HM gp_key1) as (vss1 & HM1).
  { intros h gx Hh Hin. destruct (HPS h gx Hh Hin) as (b & v & v0 & v1 & _ & _ & _ & H1 & _). eauto. }
  assert (HApp : forall sel vss, (forall g, In g gs -> key_ok d (sel g)) ->
     mapM (fun h => mapM (val sel h) (combine gs points)) (seq 0 (length ps)) = Ok vss ->
     forall S (op : S -> list cval -> S * bool) s,
       evaluate_and_apply aes d T (map sel gs) points op rs s = Ok (run_op op s vss)).
  { intros sel vss Hk Hm S op s. rewrite (apply_at aes F ps types d HC); auto.
    - apply (apply_spec_run_op aes ps d T); [lia|].
      rewrite <- Hm. apply mapM_ext. intros h Hh. clear - HL. unfold val.
      revert points HL. induction gs as [|g l IH]; intros [|x pts] HL; cbn in HL; try lia; auto.
      cbn [map combine mapM fst snd]. rewrite (IH pts) by lia. reflexivity.
    - rewrite map_length. auto.
    - apply Forall_map, Forall_forall. auto.
    - rewrite map_length. auto.
    - intros Hne h Hh. destruct gs as [|g l]; [destruct Hne; reflexivity|]. fcons HG Hg HG'.
      destruct Hg as (Ha & s0 & s1 & Hgen). eapply gen_enough; eauto. }
  assert (HK : forall g, In g gs -> key_ok d (gp_key0 g) /\ key_ok d (gp_key1 g)).
  { intros g Hg. rewrite Forall_forall in HG. destruct (HG g Hg) as (Ha & s0 & s1 & Hgen).
    eapply gen_keys_ok; eauto. }
  exists vss0, vss1.
  split; [apply mapM_length in HM0; rewrite seq_length in HM0; auto|].
  split; [apply mapM_length in HM1; rewrite seq_length in HM1; auto|].
  split; [apply HApp; auto; intros g Hg; apply HK; auto|].
  split; [apply HApp; auto; intros g Hg; apply HK; auto|].
  assert (HNth : forall A B (f : A -> res B) l bs i b, mapM f l = Ok bs -> nth_error bs i = Some b ->
     exists a, nth_error l i = Some a /\ f a = Ok b).
  { clear. intros A B f l bs i b H. apply mapM_ok_iff in H. revert i. induction H; intros [|i] Hi; try discriminate.
    - inv Hi. cbn. eauto.
    - cbn in *. auto. }
  intros h vs0 vs1 Hv0 Hv1.
  destruct (HNth _ _ _ _ _ _ _ HM0 Hv0) as (h0 & Hh0 & HM0').
  destruct (HNth _ _ _ _ _ _ _ HM1 Hv1) as (h1 & Hh1 & HM1').
  assert (Hh : (h < length ps)%nat).
  { assert (h < length (seq 0 (length ps)))%nat by (apply nth_error_Some; congruence). rewrite seq_length in *. auto. }
  rewrite nth_error_seq in Hh0, Hh1 by auto. cbn [Nat.add] in *.
  assert (h0 = h) by congruence. assert (h1 = h) by congruence. subst h0 h1.
  assert (Hc : length (combine gs points) = length gs) by (rewrite combine_length; lia).
  split; [apply mapM_length in HM0'; lia|]. split; [apply mapM_length in HM1'; lia|].
  intros i g x v0 v1 Hg Hx H0 H1.
  destruct (HNth _ _ _ _ _ _ _ HM0' H0) as ([g0 x0] & Hc0 & HE0).
  destruct (HNth _ _ _ _ _ _ _ HM1' H1) as ([g1 x1] & Hc1 & HE1).
  assert (Hgx : nth_error (combine gs points) i = Some (g, x)).
  { clear - Hg Hx. revert points i Hg Hx. induction gs as [|a l IH]; intros [|b pts] [|i] Hg Hx; try discriminate; cbn in *.
    - congruence.
    - auto. }
  assert ((g0, x0) = (g, x)) by congruence. assert ((g1, x1) = (g, x)) by congruence. inversion H; inversion H2; subst.
  destruct (HPS h (g, x) Hh (nth_error_In _ _ Hgx)) as (b & v & w0 & w1 & Hb & Hr & HV0 & HV1 & HS).
  assert (w0 = v0) by congruence. assert (w1 = v1) by congruence. subst.
  exists b, v. auto.
Qed.
Print Assumptions C03_apply_shares.

(** The callback collects the values it is called with and stops after [n] calls. *)
Definition ex3_op (s : list (list cval) * nat) (vs : list cval) : (list (list cval) * nat) * bool :=
  ((fst s ++ [vs], snd s - 1)%nat, negb (Nat.eqb (snd s) 1)).
Example C03_nonvacuous :
  created ex_F ex3_ps [] ex3_d /\ Forall (generated ex_aes ex3_d) ex3_gs /\
  match evaluate_and_apply ex_aes ex3_d (TInt 32) (map gp_key0 ex3_gs) [77; 120; 3] ex3_op 0 ([], 9%nat),
        evaluate_and_apply ex_aes ex3_d (TInt 32) (map gp_key1 ex3_gs) [77; 120; 3] ex3_op 0 ([], 9%nat) return Prop with
  | Ok ([a0; a1], _), Ok ([b0; b1], _) =>
      zip2 (vadd (TInt 32)) a0 b0 = [VNum 5; VNum 8; VNum 1] /\ zip2 (vadd (TInt 32)) a1 b1 = [VNum 6; VNum 0; VNum 0]
  | _, _ => False
  end /\
  match evaluate_and_apply ex_aes ex3_d (TInt 32) (map gp_key0 ex3_gs) [77; 120; 3] ex3_op 0 ([], 1%nat) return Prop with
  | Ok ([a0], _) => True
  | _ => False
  end.
Proof.
  split; [|split].
  - exact ex3_created.
  - apply Forall_cons; [|apply Forall_cons; [|apply Forall_cons; [|apply Forall_nil]]];
      (split; [vm_compute; reflexivity|]).
    + exists (2 ^ 100 + 77), (2 ^ 90 + 77). vm_compute. reflexivity.
    + exists (2 ^ 100 + 127), (2 ^ 90 + 127). vm_compute. reflexivity.
    + exists (2 ^ 100), (2 ^ 90). vm_compute. reflexivity.
  - vm_compute. auto.
Qed.

(** ** C04: all evaluation APIs agree on every key that passes validation *)

(** EvaluateUntil/EvaluateNext, in any valid history, return what EvaluateAt returns for
    the same domain elements. *)
Theorem C04_until_is_at : forall aes F ps types d key c ks,
  created F ps types d -> (forall h, (h < length ps)%nat -> exists T, level_has ps h T) ->
  create_evaluation_context d key = Ok c ->
  valid_history ps d None (fun _ => True) ks ->
  Forall (fun k => roomy ps d (call_type k)) ks ->
  run_calls aes d c ks = at_results aes d ps key None ks.
Proof.
  intros aes F ps types d key c ks HC HTy Hc HV HS.
  apply (history_until_at aes F ps types d HC); auto. intros h T HIn HT.
  eapply roomy_enough; eauto. rewrite Forall_forall in HS. apply in_map_iff in HIn. destruct HIn as (k & <- & Hk). auto.
Qed.
Print Assumptions C04_until_is_at.
(** EvaluateAndApply does what its documentation says in terms of EvaluateAt. *)
Theorem C04_apply_is_at : forall aes F ps types d T keys points rs S (op : S -> list cval -> S * bool) s,
  created F ps types d -> (forall h, (h < length ps)%nat -> level_has ps h T) -> roomy ps d T ->
  Forall (fun key => validate_dpf_key d key = Ok tt) keys -> length points = length keys ->
  Forall (fun x => x < 2 ^ 128 /\ x < 2 ^ (N.of_nat rs + last_ld ps)) points ->
  N.of_nat (length keys) * (last_ld ps + 1) < 2 ^ 31 ->
  evaluate_and_apply aes d T keys points op rs s
  = apply_spec aes d ps T keys points rs op (length ps) 0 s.
Proof.
  intros aes F ps types d T keys points rs S op s HC HT HS HK HL HP HN.
  apply (apply_at aes F ps types d HC); auto. intros _ h Hh. eapply roomy_enough; eauto.
Qed.
Print Assumptions C04_apply_is_at.
Example C04_nonvacuous :
  validate_dpf_key ex_d ex4_key = Ok tt /\ ex4_key <> ex_k0 /\ ex4_key <> ex_k1 /\
  match create_evaluation_context ex_d ex4_key return Prop with
  | Ok c => match run_calls ex_aes ex_d c ex_calls, at_results ex_aes ex_d ex_ps ex4_key None ex_calls return Prop with
            | [Ok a; Ok b; Ok e], [Ok a'; Ok b'; Ok e'] => a = a' /\ b = b' /\ e = e' /\ length e = 24%nat
            | _, _ => False
            end
  | _ => False
  end.
Proof. vm_compute. repeat split; discriminate. Qed.

(** ** C05: resuming from a context is the same as starting from the root *)
Theorem C05_resume : forall aes F ps types d key c prev stored h T points,
  created F ps types d -> (forall k, (k < length ps)%nat -> exists T, level_has ps k T) ->
  after aes d ps key c prev stored ->
  level_has ps h T -> Forall (fun x => x < 2 ^ level_ld ps h) points ->
  Forall (extends ps stored h) points ->
  fst (evaluate_at_ctx aes d T (Z.of_nat h) points c) = evaluate_at aes d T key (Z.of_nat h) points.
Proof.
  intros aes F ps types d key c prev stored h T points HC HTy HA HT HP HE.
  exact (at_ctx_extends aes F ps types d HC HTy key c prev stored h T points HA HT HP HE).
Qed.
Print Assumptions C05_resume.
Example C05_nonvacuous :
  after ex_aes ex_d ex_ps ex4_key ex5_c2 (Some 1%nat) (Some (0%nat, [3; 2])) /\
  Forall (extends ex_ps (Some (0%nat, [3; 2])) 2) [300; 511; 256] /\
  exists r, fst (evaluate_at_ctx ex_aes ex_d (TInt 64) 2 [300; 511; 256] ex5_c2) = Ok r /\ length r = 3%nat.
Proof.
  split; [exact ex5_after2|]. split.
  - repeat (apply Forall_cons; [right; vm_compute; tauto|]). apply Forall_nil.
  - vm_compute. eexists. split; reflexivity.
Qed.

(** ** C06: output order and size of EvaluateUntil *)

(** After any successful calls, a successful EvaluateUntil returns for the first call
    2^ld values in increasing order of the domain element, and for later calls one block
    of 2^gap values per prefix, in the order of the prefixes. *)
Theorem C06_output_order : forall aes F ps types d key c prev stored T h prefixes r c',
  created F ps types d -> (forall k, (k < length ps)%nat -> exists T, level_has ps k T) ->
  after aes d ps key c prev stored -> cty_ok T = true ->
  Forall (fun p => p < 2 ^ 128) prefixes -> expansion_fits d prev (Z.to_nat h) prefixes ->
  evaluate_until aes d T h prefixes c = (Ok r, c') ->
  match prev with
  | None =>
      prefixes = [] /\ length r = N.to_nat (2 ^ level_ld ps (Z.to_nat h)) /\
      forall j v, nth_error r j = Some v -> evaluate_at aes d T key h [N.of_nat j] = Ok [v]
  | Some q =>
      let g := level_ld ps (Z.to_nat h) - level_ld ps q in
      length r = (length prefixes * N.to_nat (2 ^ g))%nat /\
      forall i p j v, nth_error prefixes i = Some p -> N.of_nat j < 2 ^ g ->
        nth_error r (i * N.to_nat (2 ^ g) + j) = Some v ->
        evaluate_at aes d T key h [p * 2 ^ g + N.of_nat j] = Ok [v]
  end.
Proof.
  intros aes F ps types d key c prev stored T h prefixes r c' HC HTy HA Hok HP Hfit HU.
  destruct (until_outputs aes F ps types d HC HTy key c prev stored T h prefixes r c' HA Hok HP Hfit HU)
    as (Hh & HT & Hpre & Hran & HE).
  destruct (created_wf _ _ _ _ HC) as (W & _). pose proof (created_len _ _ _ _ HC) as HLn.
  destruct (after_inv aes F ps types d HC HTy _ _ _ _ HA) as (I & _).
  pose proof (inv_key_ok _ _ _ _ I) as HK. pose proof (level_has_lt _ _ _ HT) as Hlt.
  set (hn := Z.to_nat h) in *. replace h with (Z.of_nat hn) in * by lia.
  assert (HE' : enough_bytes T (16 * blocks d hn)) by (eapply until_ok_enough; eauto).
  assert (HT' : level_type d hn T) by (eapply level_has_type; eauto).
  assert (HR : forall x, In x (outputs ps prev hn prefixes) -> x < 2 ^ N.of_nat (ld d hn)).
  { intros x Hx. rewrite <- (created_ld _ _ _ _ _ HC) by auto. eapply in_outputs_range; [|exact Hx].
    destruct prev as [q|]; auto. split; auto. apply (ld_mono F ps types d HC); lia. }
  assert (HO : outputs ps prev hn prefixes <> [] ->
     length r = length (outputs ps prev hn prefixes) /\
     forall j x v, nth_error (outputs ps prev hn prefixes) j = Some x -> nth_error r j = Some v ->
       evaluate_at aes d T key (Z.of_nat hn) [x] = Ok [v]).
  { intros Hne. rewrite (evaluate_at_eq aes d W hn T ltac:(lia) HT' HE') in HE; auto.
    2:{ apply Forall_forall. auto. }
    bind_inv HE. inv HE. split; [apply map_length|]. intros j x v Hx Hv.
    rewrite (evaluate_at_eq aes d W hn T ltac:(lia) HT' HE'); auto; try discriminate.
    - rewrite Hb. cbn [bind map]. rewrite nth_error_map, Hx in Hv. cbn [option_map] in Hv. inv Hv. reflexivity.
    - constructor; auto. apply HR. eapply nth_error_In; eauto. }
  destruct prev as [q|]; cbn [outputs] in HO.
  - destruct Hpre as [Hq Hne]. cbv zeta. set (g := level_ld ps hn - level_ld ps q) in *.
    destruct HO as [HOl HOn].
    { intros HX. apply (f_equal (@length N)) in HX. rewrite flat_extensions_length in HX.
      pose proof (N.pow_nonzero 2 g ltac:(lia)). destruct prefixes; [congruence|]. cbn [length] in HX. nia. }
    rewrite flat_extensions_length in HOl. split; auto. intros i p j v Hp Hj Hv.
    eapply HOn; eauto. apply flat_extensions_nth; auto.
  - destruct HO as [HOl HOn].
    { intros HX. apply (f_equal (@length N)) in HX. rewrite extensions_length in HX. cbn in HX.
      pose proof (N.pow_nonzero 2 (level_ld ps hn) ltac:(lia)). lia. }
    rewrite extensions_length in HOl. split; auto. split; auto. intros j v Hv.
    assert (j < length r)%nat by (apply nth_error_Some; congruence).
    eapply HOn; eauto. rewrite extensions_nth by lia. reflexivity.
Qed.
Print Assumptions C06_output_order.
(** Unsorted and repeated prefixes of a packed type. *)
Example C06_nonvacuous : exists r c',
  evaluate_until ex_aes ex_d ex_tuple 1 [3; 2; 3] ex5_c1 = (Ok r, c') /\ length r = 48%nat /\
  evaluate_at ex_aes ex_d ex_tuple ex4_key 1 [2 * 16 + 5] = Ok [nth (1 * 16 + 5) r (VNum 0)] /\
  firstn 16 r = skipn 32 r.
Proof. vm_compute. eexists _, _. repeat split; reflexivity. Qed.

