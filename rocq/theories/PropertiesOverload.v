(** C77: the overloads of key generation that take integers or values of C++ types. *)
From Coq Require Import List NArith ZArith QArith Lia Bool ZifyBool ZifyNat ZifyN.
From Verif Require Import Base ListUtil ValueTypesModel ValueTypesSpec ValueTypesProofs
  ConvProofs BitsProofs TypeProofs DpfModel DpfTree DpfWf DpfGen DpfEval DpfPoint DpfCtx DpfApply
  DpfSpec DpfHist DpfReach DpfSafe DpfCreate DpfFacts DpfExamples PropertiesValueTypes PropertiesDpf
  PropertiesDpfApi PropertiesAggregate OverloadModel.
Import ListNotations.
Ltac Zify.zify_post_hook ::= Z.div_mod_to_equations.
Open Scope N_scope.

(** * Specification *)

(** The values that the caller passes have the types that the parameters declare. *)
Definition typed_betas (ps : list param) (beta : list (cty * cval)) : Prop :=
  Forall2 (fun p b => cty_ok (fst b) = true /\ wt (fst b) (snd b) = true /\
                      p_vt p = Some (to_value_type (fst b))) ps beta.
(** The keys are for the point function with values [beta], at every level. *)
Definition keys_for (aes : N -> N -> N) (d : dpf) (ps : list param) (alpha : N) (beta : list (cty * cval))
    (k0 k1 : dkey) : Prop :=
  forall h T v, nth_error beta h = Some (T, v) -> forall points, Forall (fun x => x < 2 ^ level_ld ps h) points ->
    exists r0 r1, evaluate_at aes d T k0 (Z.of_nat h) points = Ok r0 /\
      evaluate_at aes d T k1 (Z.of_nat h) points = Ok r1 /\
      reconstruct T (alpha_prefix ps alpha h) v points r0 r1.
(** All value types are unsigned integers, of [widths] bits. *)
Definition integer_levels (ps : list param) (widths : list N) : Prop :=
  Forall2 (fun p w => cty_ok (TInt w) = true /\ p_vt p = Some (PTInteger (Z.of_N w))) ps widths.

(** * Proofs *)

Lemma convert_span_spec : forall beta d T, convert_span d T beta =
  (map (to_value T) beta, fold_right register_value_type d (repeat T (length beta))).
Proof.
  induction beta as [|x beta IH]; intros d T; [reflexivity|]. cbn [convert_span dpf_to_value fst snd map length repeat fold_right].
  rewrite IH. f_equal.
  assert (HC : forall n d, fold_right register_value_type (register_value_type T d) (repeat T n)
             = register_value_type T (fold_right register_value_type d (repeat T n))).
  { induction n as [|n IHn]; intros d'; [reflexivity|]. cbn [repeat fold_right]. rewrite IHn. reflexivity. }
  apply HC.
Qed.
Lemma convert_pack_spec : forall beta d values, convert_pack d values beta =
  (values ++ map (fun b => to_value (fst b) (snd b)) beta, fold_right register_value_type d (rev (map fst beta))).
Proof.
  induction beta as [|b beta IH]; intros d values; cbn [convert_pack dpf_to_value map rev fold_right].
  - rewrite app_nil_r. reflexivity.
  - rewrite IH, <- app_assoc. rewrite fold_right_app. reflexivity.
Qed.
Lemma created_more : forall F ps types d more, created F ps types d -> Forall (fun T => cty_ok T = true) more ->
  created F ps (more ++ types) (fold_right register_value_type d more).
Proof.
  intros F ps types d more (d0 & H0 & HF & ->) HM. exists d0. split; [exact H0|].
  split; [apply Forall_app; auto|]. rewrite fold_right_app. reflexivity.
Qed.
Lemma roomy_more : forall ps d T more, roomy ps d T -> roomy ps (fold_right register_value_type d more) T.
Proof.
  intros ps d T more HR h HL. destruct (register_fields more d) as (_ & _ & _ & HB & _). cbn zeta in HB. rewrite HB. auto.
Qed.

Lemma Forall2_nth : forall {A B} (R : A -> B -> Prop) l m h b, Forall2 R l m -> nth_error m h = Some b ->
  exists a, nth_error l h = Some a /\ R a b.
Proof.
  intros A B R l m h b H. revert h. induction H; intros [|h] Hn; try discriminate; cbn in Hn.
  - inv Hn. eexists. split; [reflexivity|assumption].
  - apply IHForall2. exact Hn.
Qed.

Lemma Forall2_nth_l : forall {A B} (R : A -> B -> Prop) l m h a, Forall2 R l m -> nth_error l h = Some a ->
  exists b, nth_error m h = Some b /\ R a b.
Proof.
  intros A B R l m h a H. revert h. induction H; intros [|h] Hn; try discriminate; cbn in Hn.
  - inv Hn. eexists. split; [reflexivity|assumption].
  - apply IHForall2. exact Hn.
Qed.

Lemma repr_det : forall T p v, repr T p v -> forall v', repr T p v' -> v = v'.
Proof.
  fix IH 4. intros T p v H v' H'. destruct H as [w i x He Hx|w m i x He Hx|w i x He Hx|ts ps vs HR]; inversion H'; subst.
  1-3: f_equal; destruct i; cbn in *; try tauto; congruence.
  f_equal. match goal with H0 : reprs ts ps _ |- _ => rename H0 into HR' end. clear H'.
  revert vs0 HR'. revert ts ps vs HR. fix IHs 4. intros ts ps vs HR vs0 HR'.
  destruct HR as [|t ts p ps v vs H1 H2]; inversion HR'; subst; [reflexivity|].
  f_equal; [eapply IH; eassumption|eapply IHs; eassumption].
Qed.

Lemma betas_args : forall ps alpha beta, typed_betas ps beta -> alpha < 2 ^ last_ld ps ->
  keygen_args ps alpha (map (fun b => to_value (fst b) (snd b)) beta).
Proof.
  intros ps alpha beta HB Ha. split; [|exact Ha]. clear Ha. induction HB as [|p b ps beta (Hok & Hwt & Hvt) HB IH]; [constructor|].
  cbn [map]. constructor; [|exact IH]. exists (fst b), (snd b). split; [exact Hok|]. split.
  - unfold p_type. rewrite Hvt. apply to_value_type_denotes. exact Hok.
  - apply to_value_repr; assumption.
Qed.
Lemma betas_level : forall ps beta h T v, typed_betas ps beta -> nth_error beta h = Some (T, v) -> level_has ps h T.
Proof.
  intros ps beta h T v HB Hn. destruct (Forall2_nth _ _ _ _ _ HB Hn) as (p & Hp & Hok & _ & Hvt). cbn [fst] in *.
  split; [exact Hok|]. exists p. split; [exact Hp|]. unfold p_type. rewrite Hvt. apply to_value_type_denotes. exact Hok.
Qed.

Lemma typed_generate : forall aes F ps types d more alpha beta seed0 seed1,
  created F ps types d -> typed_betas ps beta -> Forall (roomy ps d) types -> Forall (roomy ps d) (map fst beta) ->
  (forall T, In T (map fst beta) <-> In T more) -> alpha < 2 ^ last_ld ps -> alpha < 2 ^ 128 ->
  let d' := fold_right register_value_type d more in
  created F ps (more ++ types) d' /\
  exists k0 k1, generate_keys aes d' alpha (map (fun b => to_value (fst b) (snd b)) beta) seed0 seed1 = Ok (k0, k1) /\
    keys_for aes d' ps alpha beta k0 k1.
Proof.
  intros aes F ps types d more alpha beta seed0 seed1 HC HB HRt HRb HM Ha Ha128 d'.
  assert (HOK : Forall (fun T => cty_ok T = true) more).
  { apply Forall_forall. intros T HT. apply HM in HT. apply in_map_iff in HT. destruct HT as (b & <- & Hb).
    apply In_nth_error in Hb. destruct Hb as [h Hh]. destruct (Forall2_nth _ _ _ _ _ HB Hh) as (p & _ & Hok & _). exact Hok. }
  pose proof (created_more _ _ _ _ _ HC HOK) as HC'. fold d' in HC'. split; [exact HC'|].
  assert (HReg : registered ps (more ++ types)).
  { unfold registered. apply Forall_forall. intros p Hp. apply In_nth_error in Hp. destruct Hp as [h Hh].
    destruct (Forall2_nth_l _ _ _ _ _ HB Hh) as (b & Hb & _ & _ & Hvt). exists (fst b). split; [|exact Hvt].
    rewrite <- app_assoc. apply in_or_app. left. apply HM. apply in_map. eapply nth_error_In. exact Hb. }
  assert (HRo : Forall (roomy ps d') (more ++ types)).
  { apply Forall_app. split.
    - apply Forall_forall. intros T HT. apply roomy_more. apply HM in HT. rewrite Forall_forall in HRb. apply HRb. exact HT.
    - eapply Forall_impl; [|exact HRt]. intros T HT. apply roomy_more. exact HT. }
  destruct (C07_keygen_accepts_partial aes F ps _ d' alpha _ seed0 seed1 HC' HReg HRo (betas_args ps alpha beta HB Ha)) as (k0 & k1 & HG).
  exists k0, k1. split; [exact HG|]. intros h T v Hn points HP.
  destruct (C01_evaluate_at_shares aes F ps _ d' alpha _ seed0 seed1 k0 k1 HC' Ha128 HG h T (betas_level _ _ _ _ _ HB Hn))
    as (b & v' & Hb & HR & HE).
  rewrite nth_error_map, Hn in Hb. cbn [option_map fst snd] in Hb. inv Hb.
  destruct (Forall2_nth _ _ _ _ _ HB Hn) as (p & _ & Hok & Hwt & _). cbn [fst snd] in *.
  rewrite (repr_det _ _ _ HR v) in HE; [exact (HE points HP)|]. apply to_value_repr; assumption.
Qed.

Scheme gsum_mut := Induction for gsum Sort Prop with gsums_mut := Induction for gsums Sort Prop.
Lemma gsum_det : forall T a b c, gsum T a b c -> forall c', gsum T a b c' -> c = c'.
Proof.
  apply (gsum_mut (fun T a b c _ => forall c', gsum T a b c' -> c = c')
                  (fun ts xs ys zs _ => forall zs', gsums ts xs ys zs' -> zs = zs')).
  - intros w x y c' H. inversion H. reflexivity.
  - intros w m x y c' H. inversion H. reflexivity.
  - intros w x y c' H. inversion H. reflexivity.
  - intros ts xs ys zs _ IH c' H. inversion H; subst. f_equal. apply IH. assumption.
  - intros zs' H. inversion H. reflexivity.
  - intros t ts x xs y ys z zs _ IH _ IHs zs' H. inversion H; subst. f_equal; auto.
Qed.

(** ** C77: key generation from integers and C++ values *)

(** The version with a parameter pack generates keys for the given values, at an object with which no
    value type has been registered, and afterwards the types are registered.  Partial: the types have
    enough reserved bytes ([roomy]); for other types key generation aborts (C07_keygen_refuted). *)
Theorem C77_pack_partial : forall aes F ps types d alpha beta_0 beta_n seed0 seed1,
  created F ps types d -> typed_betas ps (beta_0 :: beta_n) -> Forall (roomy ps d) types ->
  Forall (roomy ps d) (map fst (beta_0 :: beta_n)) -> alpha < 2 ^ last_ld ps -> alpha < 2 ^ 128 ->
  exists k0 k1 types' d', generate_keys_pack aes d alpha beta_0 beta_n seed0 seed1 = (Ok (k0, k1), d') /\
    created F ps types' d' /\ keys_for aes d' ps alpha (beta_0 :: beta_n) k0 k1 /\
    keys_for aes d ps alpha (beta_0 :: beta_n) k0 k1.
Proof.
  intros aes F ps types d alpha beta_0 beta_n seed0 seed1 HC HB HRt HRb Ha Ha128.
  set (more := rev (map fst (beta_0 :: beta_n))).
  destruct (typed_generate aes F ps types d more alpha _ seed0 seed1 HC HB HRt HRb (fun T => in_rev _ T) Ha Ha128)
    as (HC' & k0 & k1 & HG & HK).
  exists k0, k1, (more ++ types), (fold_right register_value_type d more). split; [|split; [exact HC'|split; [exact HK|]]].
  - unfold generate_keys_pack, dpf_to_value. rewrite convert_pack_spec.
    assert (HE : fold_right register_value_type (register_value_type (fst beta_0) d) (rev (map fst beta_n))
                 = fold_right register_value_type d more).
    { unfold more. cbn [map rev]. rewrite fold_right_app. reflexivity. }
    rewrite HE. cbn [app map] in *. rewrite HG. reflexivity.
  - intros h T v Hn points HP. destruct (HK h T v Hn points HP) as (r0 & r1 & E0 & E1 & HR). exists r0, r1.
    destruct (C67_interchangeable aes F ps _ _ _ _ HC HC') as (_ & _ & HX & _). rewrite !HX. auto.
Qed.
Print Assumptions C77_pack_partial.

(** The same for the version with a span of values of one type. *)
Theorem C77_span_partial : forall aes F ps types d T alpha beta seed0 seed1,
  created F ps types d -> typed_betas ps (map (pair T) beta) -> Forall (roomy ps d) types ->
  roomy ps d T -> alpha < 2 ^ last_ld ps -> alpha < 2 ^ 128 ->
  exists k0 k1 types' d', generate_keys_span aes d T alpha beta seed0 seed1 = (Ok (k0, k1), d') /\
    created F ps types' d' /\ keys_for aes d' ps alpha (map (pair T) beta) k0 k1.
Proof.
  intros aes F ps types d T alpha beta seed0 seed1 HC HB HRt HRb Ha Ha128.
  set (more := repeat T (length beta)).
  assert (HF : map fst (map (pair T) beta) = more).
  { unfold more. clear. induction beta as [|x beta IH]; [reflexivity|]. cbn. rewrite IH. reflexivity. }
  assert (HRm : Forall (roomy ps d) (map fst (map (pair T) beta))).
  { rewrite HF. apply Forall_forall. intros U HU. apply repeat_spec in HU. subst U. exact HRb. }
  assert (HM : forall U, In U (map fst (map (pair T) beta)) <-> In U more) by (intros U; rewrite HF; tauto).
  destruct (typed_generate aes F ps types d more alpha _ seed0 seed1 HC HB HRt HRm HM Ha Ha128) as (HC' & k0 & k1 & HG & HK).
  exists k0, k1, (more ++ types), (fold_right register_value_type d more). split; [|split; [exact HC'|exact HK]].
  unfold generate_keys_span. rewrite convert_span_spec. fold more. rewrite map_map in HG. cbn [fst snd] in HG.
  f_equal. exact HG.
Qed.
Print Assumptions C77_span_partial.

(** Every overload does what the overload for Value protos does with the converted values, at an object
    with which the types are registered: also with wrong arguments. *)
Theorem C77_agree : forall aes d alpha seed0 seed1,
  (forall b bs, let d' := fold_right register_value_type d (rev (map fst (b :: bs))) in
     generate_keys_pack aes d alpha b bs seed0 seed1
     = (generate_keys aes d' alpha (map (fun b => to_value (fst b) (snd b)) (b :: bs)) seed0 seed1, d')) /\
  (forall T l, let d' := fold_right register_value_type d (repeat T (length l)) in
     generate_keys_span aes d T alpha l seed0 seed1
     = (generate_keys aes d' alpha (map (to_value T) l) seed0 seed1, d')) /\
  (forall b, generate_keys_one aes d alpha b seed0 seed1 = generate_keys_pack aes d alpha b [] seed0 seed1) /\
  (forall x, generate_keys_one_integer aes d alpha x seed0 seed1 = generate_keys_integers aes d alpha [x] seed0 seed1).
Proof.
  intros aes d alpha seed0 seed1. split; [|split; [|split]].
  - intros b bs d'. unfold generate_keys_pack, dpf_to_value. rewrite convert_pack_spec.
    assert (HE : fold_right register_value_type (register_value_type (fst b) d) (rev (map fst bs)) = d').
    { unfold d'. cbn [map rev]. rewrite fold_right_app. reflexivity. }
    rewrite HE. reflexivity.
  - intros T l d'. unfold generate_keys_span. rewrite convert_span_spec. reflexivity.
  - intros b. reflexivity.
  - intros x. reflexivity.
Qed.
Print Assumptions C77_agree.

(** Integers are accepted exactly if there is one for every level that fits into the level's integers,
    and alpha is in the domain; otherwise the result is INVALID_ARGUMENT. *)
Theorem C77_integers : forall aes F ps types d widths alpha beta seed0 seed1,
  created F ps types d -> integer_levels ps widths -> alpha < 2 ^ 128 -> Forall (fun x => x < 2 ^ 128) beta ->
  let d' := snd (generate_keys_integers aes d alpha beta seed0 seed1) in
  (Forall2 (fun w x => x < 2 ^ w) widths beta /\ alpha < 2 ^ last_ld ps ->
   exists k0 k1, fst (generate_keys_integers aes d alpha beta seed0 seed1) = Ok (k0, k1) /\
     keys_for aes d' ps alpha (combine (map TInt widths) (map VNum beta)) k0 k1) /\
  (~ (Forall2 (fun w x => x < 2 ^ w) widths beta /\ alpha < 2 ^ last_ld ps) ->
   fst (generate_keys_integers aes d alpha beta seed0 seed1) = Err INVALID_ARGUMENT).
Proof.
  intros aes F ps types d widths alpha beta seed0 seed1 HC HI Ha HX d'.
  set (more := repeat (TInt 128) (length (map VNum beta))).
  assert (HD : d' = fold_right register_value_type d more).
  { unfold d', generate_keys_integers, generate_keys_span. rewrite convert_span_spec. reflexivity. }
  assert (HE : fst (generate_keys_integers aes d alpha beta seed0 seed1)
               = generate_keys aes d' alpha (map (fun x => PVInteger (uint128_to_vinteger x)) beta) seed0 seed1).
  { rewrite HD. unfold generate_keys_integers, generate_keys_span. rewrite convert_span_spec. cbn [fst]. f_equal. rewrite map_map. reflexivity. }
  assert (Hmore : Forall (fun T => T = TInt 128) more).
  { apply Forall_forall. intros T HT. apply repeat_spec in HT. exact HT. }
  assert (HC' : created F ps (more ++ types) d').
  { rewrite HD. apply created_more; [exact HC|]. eapply Forall_impl; [|exact Hmore]. intros T ->. reflexivity. }
  assert (HReg : registered ps (more ++ types)).
  { unfold registered. apply Forall_forall. intros p Hp. apply In_nth_error in Hp. destruct Hp as [h Hh].
    destruct (Forall2_nth_l _ _ _ _ _ HI Hh) as (w & Hw & Hok & Hvt). exists (TInt w). split; [|exact Hvt].
    apply in_or_app. right. clear - Hok. cbn [cty_ok] in Hok. cbn [In].
    widths Hok; tauto. }
  assert (HRo : Forall (roomy ps d') (more ++ types)).
  { apply Forall_forall. intros T _ h (Hok & p & Hp & HDn). destruct (Forall2_nth_l _ _ _ _ _ HI Hp) as (w & _ & HokW & Hvt).
    assert (HT : T = TInt w).
    { eapply denotes_fun; [exact HDn|]. unfold p_type. rewrite Hvt. constructor. }
    subst T. apply (C11_roomy F ps _ d' (TInt w) HC' eq_refl). split; [exact HokW|]. exists p. auto. }
  assert (HA : keygen_args ps alpha (map (fun x => PVInteger (uint128_to_vinteger x)) beta) <->
               Forall2 (fun w x => x < 2 ^ w) widths beta /\ alpha < 2 ^ last_ld ps).
  { unfold keygen_args. enough (Forall2 (fun p b => exists T v, cty_ok T = true /\ denotes (p_type p) T /\ repr T b v) ps
        (map (fun x => PVInteger (uint128_to_vinteger x)) beta) <-> Forall2 (fun w x => x < 2 ^ w) widths beta) by tauto.
    clear - HI HX. revert beta HX. induction HI as [|p w ps widths (Hok & Hvt) HI IH]; intros beta HX.
    { destruct beta; cbn; split; intros H; inversion H; constructor. }
    destruct beta as [|x beta]; [split; intros H; inversion H|]. inversion HX as [|? ? Hx HX']; subst. cbn [map].
    assert (HEn : encodes (uint128_to_vinteger x) x).
    { pose proof (to_value_repr (TInt 128) (VNum x) eq_refl ltac:(cbn [wt]; apply N.ltb_lt; exact Hx)) as H. cbn [to_value] in H. inversion H. assumption. }
    split; intros H; inversion H as [|? ? ? ? H1 H2]; subst; (constructor; [|apply (IH beta HX'); exact H2]).
    - destruct H1 as (T & v & HokT & HDn & HR). unfold p_type in HDn. rewrite Hvt in HDn. inversion HR; subst; inversion HDn; subst.
      assert (w0 = w) as -> by lia.
      match goal with Hy : encodes _ ?y, Hl : ?y < 2 ^ w |- _ => assert (HEq : y = x) by (clear - Hy HEn; destruct (uint128_to_vinteger x); cbn in *; try tauto; congruence); rewrite <- HEq; exact Hl end.
    - exists (TInt w), (VNum x). split; [exact Hok|]. split; [unfold p_type; rewrite Hvt; constructor|]. constructor; assumption. }
  split.
  - intros HO. rewrite HE. apply HA in HO as HK.
    destruct (C07_keygen_accepts_partial aes F ps _ d' alpha _ seed0 seed1 HC' HReg HRo HK) as (k0 & k1 & HG).
    exists k0, k1. split; [exact HG|]. intros h T v Hn points HP.
    assert (HN : exists w x, nth_error widths h = Some w /\ nth_error beta h = Some x /\ T = TInt w /\ v = VNum x).
    { clear - Hn. revert widths beta Hn. induction h as [|h IH]; intros [|w widths] [|x beta] Hn; try discriminate; cbn in Hn.
      - inv Hn. exists w, x. auto.
      - apply IH. exact Hn. }
    destruct HN as (w & x & Hw & Hx & -> & ->).
    destruct (Forall2_nth _ _ _ _ _ HI Hw) as (p & Hp & Hok & Hvt).
    assert (HL : level_has ps h (TInt w)).
    { split; [exact Hok|]. exists p. split; [exact Hp|]. unfold p_type. rewrite Hvt. constructor. }
    destruct (C01_evaluate_at_shares aes F ps _ d' alpha _ seed0 seed1 k0 k1 HC' Ha HG h _ HL) as (b & v' & Hb & HR & HEv).
    rewrite nth_error_map, Hx in Hb. cbn [option_map] in Hb. inv Hb.
    rewrite (repr_det _ _ _ HR (VNum x)) in HEv; [exact (HEv points HP)|].
    rewrite Forall_forall in HX. pose proof (HX x (nth_error_In _ _ Hx)) as Hx128.
    pose proof (to_value_repr (TInt 128) (VNum x) eq_refl ltac:(cbn [wt]; apply N.ltb_lt; exact Hx128)) as H. cbn [to_value] in H.
    inversion H; subst. constructor; [assumption|].
    destruct HO as [HO _]. destruct (Forall2_nth _ _ _ _ _ HO Hx) as (w' & Hw' & Hlt). congruence.
  - intros HO. rewrite HE. apply (C07_keygen_rejects_partial aes F ps _ d' alpha _ seed0 seed1 HC' HReg HRo Ha). tauto.
Qed.
Print Assumptions C77_integers.

(** GenerateKeys, with whatever type of beta, is rejected by an object with more than one level. *)
Theorem C77_one_level : forall aes F ps types d alpha seed0 seed1,
  created F ps types d -> (1 < length ps)%nat ->
  (forall b, fst (generate_keys_one aes d alpha b seed0 seed1) = Err INVALID_ARGUMENT) /\
  (forall v, fst (generate_keys_one_value aes d alpha v seed0 seed1) = Err INVALID_ARGUMENT) /\
  (forall x, fst (generate_keys_one_integer aes d alpha x seed0 seed1) = Err INVALID_ARGUMENT).
Proof.
  intros aes F ps types d alpha seed0 seed1 HC HL.
  destruct (created_wf _ _ _ _ HC) as (_ & HP & _).
  assert (HR : forall T, nlevels (register_value_type T d) = nlevels d) by reflexivity.
  assert (HN : Nat.eqb 1 (nlevels d) = false) by (apply Nat.eqb_neq; unfold nlevels; lia).
  split; [|split]; intros b.
  - unfold generate_keys_one, dpf_to_value, generate_keys. cbn [fst List.length]. rewrite HR, HN. reflexivity.
  - unfold generate_keys_one_value, generate_keys. cbn [fst List.length]. rewrite HN. reflexivity.
  - unfold generate_keys_one_integer, generate_keys_span, generate_keys. cbn [convert_span dpf_to_value fst snd List.length]. rewrite HR, HN. reflexivity.
Qed.
Print Assumptions C77_one_level.

(** The documentation says that at level i the keys evaluate to beta[i] at the lowest log_domain_size
    bits of alpha.  They do exactly if these are also the highest bits, or beta[i] is zero; always at
    the last level. *)
Theorem C77_lowest_exact : forall aes F ps types d alpha beta seed0 seed1 k0 k1 h T,
  created F ps types d -> alpha < 2 ^ 128 -> generate_keys aes d alpha beta seed0 seed1 = Ok (k0, k1) ->
  level_has ps h T ->
  let low := alpha mod 2 ^ level_ld ps h in
  (exists b v r0 r1, nth_error beta h = Some b /\ repr T b v /\
     evaluate_at aes d T k0 (Z.of_nat h) [low] = Ok [r0] /\ evaluate_at aes d T k1 (Z.of_nat h) [low] = Ok [r1] /\
     (gsum T r0 r1 v <-> low = alpha_prefix ps alpha h \/ v = vzero T)) /\
  (h = (length ps - 1)%nat -> alpha < 2 ^ level_ld ps h -> low = alpha_prefix ps alpha h).
Proof.
  intros aes F ps types d alpha beta seed0 seed1 k0 k1 h T HC Ha HG HL low. split.
  - destruct (C01_evaluate_at_shares aes F ps types d alpha beta seed0 seed1 k0 k1 HC Ha HG h T HL) as (b & v & Hb & HR & HE).
    assert (HP : Forall (fun x => x < 2 ^ level_ld ps h) [low]).
    { constructor; [|constructor]. apply N.mod_lt. apply N.pow_nonzero. discriminate. }
    destruct (HE [low] HP) as (l0 & l1 & E0 & E1 & HS). unfold reconstruct in HS. cbn [map] in HS.
    inversion HS as [|r0 r1 c l0' l1' ? HS1 HS2]; subst. inversion HS2; subst.
    exists b, v, r0, r1. split; [exact Hb|]. split; [exact HR|]. split; [exact E0|]. split; [exact E1|].
    unfold point_function in HS1. destruct (low =? alpha_prefix ps alpha h) eqn:E.
    + apply N.eqb_eq in E. split; [auto|]. intros _. exact HS1.
    + apply N.eqb_neq in E. split.
      * intros HS'. right. exact (gsum_det _ _ _ _ HS' _ HS1).
      * intros [HE'|HE']; [congruence|]. rewrite HE'. exact HS1.
  - intros -> Hlt. unfold low, alpha_prefix, last_ld. rewrite N.sub_diag, N.mod_small by exact Hlt. cbn. rewrite N.div_1_r. reflexivity.
Qed.
Print Assumptions C77_lowest_exact.

Definition xq_ps : list param :=
  [ {| p_ld := 2; p_vt := Some (PTInteger 8); p_sec := DFin 40 |};
    {| p_ld := 6; p_vt := Some (to_value_type ex_tuple); p_sec := DFin 40 |} ].
Definition xq_d : dpf := Eval vm_compute in ex_create ex_F xq_ps [].
Lemma xq_created : created ex_F xq_ps [] xq_d.
Proof. exists xq_d. split; [vm_compute; reflexivity|]. split; [constructor|reflexivity]. Qed.
Theorem C77_lowest_refuted : exists aes F ps types d alpha beta seed0 seed1 k0 k1 h T b v r0 r1,
  created F ps types d /\ alpha < 2 ^ 128 /\ generate_keys aes d alpha beta seed0 seed1 = Ok (k0, k1) /\
  level_has ps h T /\ nth_error beta h = Some b /\ repr T b v /\
  evaluate_at aes d T k0 (Z.of_nat h) [alpha mod 2 ^ level_ld ps h] = Ok [r0] /\
  evaluate_at aes d T k1 (Z.of_nat h) [alpha mod 2 ^ level_ld ps h] = Ok [r1] /\ ~ gsum T r0 r1 v.
Proof.
  destruct (C77_lowest_exact ex_aes ex_F ex_ps ex_types ex_d ex_alpha ex_beta _ _ _ _ 1%nat ex_tuple
              ex_created ltac:(reflexivity) ex_generated ex_level_1) as [(b & v & r0 & r1 & Hb & HR & E0 & E1 & HI) _].
  exists ex_aes, ex_F, ex_ps, ex_types, ex_d, ex_alpha, ex_beta. do 4 eexists. exists 1%nat, ex_tuple, b, v, r0, r1.
  split; [exact ex_created|]. split; [reflexivity|]. split; [exact ex_generated|]. split; [exact ex_level_1|].
  split; [exact Hb|]. split; [exact HR|]. split; [exact E0|]. split; [exact E1|]. rewrite HI.
  assert (HV : v = VTup [VNum 1234; VNum 999999]).
  { eapply repr_det; [exact HR|]. vm_compute in Hb. inv Hb.
    change (repr ex_tuple (to_value ex_tuple (VTup [VNum 1234; VNum 999999])) (VTup [VNum 1234; VNum 999999])).
    apply to_value_repr; reflexivity. }
  rewrite HV. vm_compute. intros [H|H]; discriminate.
Qed.
Print Assumptions C77_lowest_refuted.

(** Keys for an 8-bit integer and a tuple, with an object that has not seen the tuple type; the version
    for Value protos is rejected by the same object.  Three integers, the last too large. *)
Definition xq_int_ps : list param :=
  [ {| p_ld := 2; p_vt := Some (PTInteger 8); p_sec := DFin 40 |};
    {| p_ld := 3; p_vt := Some (PTInteger 16); p_sec := DFin 40 |} ].
Definition xq_int_d : dpf := Eval vm_compute in ex_create ex_F xq_int_ps [].
Example C77_nonvacuous :
  created ex_F xq_ps [] xq_d /\
  typed_betas xq_ps [(TInt 8, VNum 7); (ex_tuple, VTup [VNum 1234; VNum 999999])] /\
  Forall (roomy xq_ps xq_d) [TInt 8; ex_tuple] /\
  is_ok (fst (generate_keys_pack ex_aes xq_d 37 (TInt 8, VNum 7) [(ex_tuple, VTup [VNum 1234; VNum 999999])] 11 12)) = true /\
  generate_keys ex_aes xq_d 37 [to_value (TInt 8) (VNum 7); to_value ex_tuple (VTup [VNum 1234; VNum 999999])] 11 12
    = Err FAILED_PRECONDITION /\
  created ex_F xq_int_ps [] xq_int_d /\ integer_levels xq_int_ps [8; 16] /\
  is_ok (fst (generate_keys_integers ex_aes xq_int_d 7 [255; 65535] 11 12)) = true /\
  fst (generate_keys_integers ex_aes xq_int_d 7 [256; 65535] 11 12) = Err INVALID_ARGUMENT.
Proof.
  split; [exact xq_created|]. split.
  { unfold typed_betas, xq_ps. repeat constructor. }
  split.
  { repeat constructor; (eapply C11_roomy; [exact xq_created|reflexivity]). }
  split; [vm_compute; reflexivity|]. split; [vm_compute; reflexivity|]. split.
  { exists xq_int_d. split; [vm_compute; reflexivity|]. split; [constructor|reflexivity]. }
  split.
  { unfold integer_levels, xq_int_ps. repeat constructor. }
  split; vm_compute; reflexivity.
Qed.
