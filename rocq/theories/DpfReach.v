(** Contexts reached by arbitrary sequences of successful calls, and rejected calls. *)
From Coq Require Import List NArith ZArith QArith Lia Bool ZifyBool ZifyNat ZifyN.
From Verif Require Import Base ListUtil ValueTypesModel ValueTypesSpec ValueTypesProofs
  ConvProofs BitsProofs TypeProofs DpfModel DpfTree DpfWf DpfGen DpfEval DpfPoint DpfCtx DpfSpec DpfHist.
Import ListNotations.
Ltac Zify.zify_post_hook ::= Z.div_mod_to_equations.
Open Scope N_scope.

(** [rejects r]: a value or INVALID_ARGUMENT. *)
Definition ok_or_invalid {A} (r : res A) : Prop :=
  match r with Ok _ => True | Err c => c = INVALID_ARGUMENT | _ => False end.

Lemma ooi_bind : forall A B (r : res A) (f : A -> res B),
  ok_or_invalid r -> (forall a, r = Ok a -> ok_or_invalid (f a)) -> ok_or_invalid (bind r f).
Proof. intros A B [a|c| |] f H Hf; cbn in *; auto. Qed.
Lemma ooi_check : forall b, ok_or_invalid (check b INVALID_ARGUMENT).
Proof. intros [|]; cbn; auto. Qed.
Lemma ooi_iterM : forall A (f : A -> res unit) l, (forall a, In a l -> ok_or_invalid (f a)) ->
  ok_or_invalid (iterM f l).
Proof.
  induction l as [|a l IH]; intros H; cbn [iterM]; [exact I|]. apply ooi_bind.
  - apply H. left. auto.
  - intros _ _. apply IH. intros. apply H. right. auto.
Qed.
Lemma ooi_not_ok : forall A (r : res A), ok_or_invalid r -> (forall a, r <> Ok a) -> r = Err INVALID_ARGUMENT.
Proof. intros A [a|c| |] H HN; cbn in *; try tauto; [exfalso; eapply HN; eauto|congruence]. Qed.

Lemma value_types_equal_ooi : forall a b, ok_or_invalid (value_types_are_equal a b).
Proof.
  assert (HV : forall i, ok_or_invalid (vinteger_to_uint128 i)) by (intros [|v|h l]; cbn; auto).
  induction a as [|w|w m|w|ts IH] using ptype_ind'; intros b; destruct b; cbn [value_types_are_equal]; try exact I; try reflexivity.
  - apply ooi_bind; auto. intros x _. apply ooi_bind; auto. intros y _. exact I.
  - destruct (Nat.eqb (length ts) (length els)); [|exact I].
    revert els. induction ts as [|t ts IHts]; intros [|e els]; cbn [types_equal_list]; try exact I.
    fcons IH IHh IHt. apply ooi_bind; auto. intros x _. apply ooi_bind; auto. intros y _. exact I.
Qed.

Lemma validate_dpf_key_ooi : forall d key, wf d -> ok_or_invalid (validate_dpf_key d key).
Proof.
  intros d key W. unfold validate_dpf_key. do 2 (apply ooi_bind; [apply ooi_check|intros _ _]).
  apply ooi_bind; [apply ooi_check|]. intros ? HL. apply check_ok in HL. apply ooi_iterM. intros t Ht.
  destruct (Z.eqb_spec (Z.of_nat t) (Z.of_nat (d_levels d) - 1)) as [|E]; [exact I|].
  apply (In_nth _ _ 0%nat) in Ht. destruct Ht as (h & Hh & Hth). rewrite (wf_len _ W) in Hh. fold (h2t d h) in Hth.
  pose proof (h2t_le_last d W h Hh). pose proof (wf_levels _ W).
  unfold at_or_ub. destruct (nth_error (k_cws key) t) eqn:En.
  - cbn [bind]. apply ooi_check.
  - apply nth_error_None in En. lia.
Qed.

Lemma validate_context_ooi : forall d c, wf d -> ok_or_invalid (validate_evaluation_context d c).
Proof.
  intros d c W. unfold validate_evaluation_context. apply ooi_bind; [apply ooi_check|intros _ _].
  apply ooi_bind.
  { generalize (c_params c). generalize (d_params d). induction l as [|p l IH]; intros [|q qs]; cbn; try exact I.
    apply ooi_bind.
    - unfold parameters_are_equal. destruct (negb _); [exact I|]. destruct (negb _); [exact I|]. apply value_types_equal_ooi.
    - intros e _. apply ooi_bind; [apply ooi_check|auto]. }
  intros _ _. apply ooi_bind; [destruct (c_key c); cbn; auto|]. intros key _.
  apply ooi_bind; [apply validate_dpf_key_ooi; auto|]. intros _ _.
  apply ooi_bind; [apply ooi_check|]. intros _ _. apply ooi_check.
Qed.

Lemma context_prev : forall d c, validate_evaluation_context d c = Ok tt ->
  (c_prev c < Z.of_nat (nlevels d) - 1)%Z /\ pl_ok c /\ key_ok d (ctx_key c) /\
  c_key c = Some (ctx_key c).
Proof.
  intros d c H. unfold validate_evaluation_context in H. bind_inv H. bind_inv H. bind_inv H. bind_inv H. bind_inv H.
  apply check_ok, Nat.eqb_eq in Hb. apply check_ok in Hb3. apply check_ok in H.
  unfold ctx_key. destruct (c_key c) as [k|]; inv Hb1. destruct a2. unfold nlevels.
  split; [lia|]. split; [|split; auto]. intros Hne. apply negb_true_iff, andb_false_iff in H.
  destruct H as [H|H].
  - apply negb_false_iff, Nat.eqb_eq in H. destruct (c_partials c); [congruence|discriminate].
  - lia.
Qed.

Section Reach.
Variable aes : N -> N -> N.
Variable d : dpf.
Hypothesis W : wf d.

Lemma atz_params : forall h, (0 <= h < Z.of_nat (nlevels d))%Z -> exists p,
  nth_error (d_params d) (Z.to_nat h) = Some p /\ atz_or_ub (d_params d) h = Ok p.
Proof.
  clear - d.
  intros h Hh. destruct (nth_error (d_params d) (Z.to_nat h)) as [p|] eqn:E.
  - exists p. split; auto. unfold atz_or_ub, at_or_ub. replace (h <? 0)%Z with false by lia. rewrite E. auto.
  - apply nth_error_None in E. unfold nlevels in Hh. lia.
Qed.

(** The up-front checks of EvaluateUntil succeed or return INVALID_ARGUMENT on every
    context, and when they succeed the arguments are as documented. *)
Lemma until_checks_ooi : forall T h prefixes c, ok_or_invalid (evaluate_until_checks d T h prefixes c).
Proof.
  clear - W.
  intros T h prefixes c. unfold evaluate_until_checks.
  apply ooi_bind; [apply validate_context_ooi; auto|]. intros [] HV. apply context_prev in HV.
  apply ooi_bind; [apply ooi_check|]. intros ? Hr. apply check_ok in Hr.
  destruct (atz_params h ltac:(lia)) as (p & Hp & ->). cbn [bind].
  apply ooi_bind; [apply value_types_equal_ooi|]. intros e _.
  apply ooi_bind; [apply ooi_check|]. intros _ _.
  apply ooi_bind; [apply ooi_check|]. intros _ _.
  apply ooi_bind; [apply ooi_check|]. intros ? Hc. apply check_ok in Hc. apply eqb_prop in Hc.
  apply ooi_bind.
  - destruct (Nat.eqb (length prefixes) 0) eqn:E; [exact I|].
    destruct (atz_params (c_prev c) ltac:(lia)) as (q & _ & ->). cbn [bind].
    apply ooi_bind; [|intros; exact I]. apply ooi_iterM. intros. apply ooi_check.
  - intros pl _. apply ooi_bind; [apply ooi_check|]. intros _ _. apply ooi_bind; [apply ooi_check|]. intros; exact I.
Qed.

Lemma until_checks_inv : forall T h prefixes c g, cty_ok T = true ->
  evaluate_until_checks d T h prefixes c = Ok g ->
  (0 <= h < Z.of_nat (nlevels d))%Z /\ level_type d (Z.to_nat h) T /\ (c_prev c < h)%Z /\
  (prefixes = [] <-> (c_prev c < 0)%Z) /\
  Forall (fun p => p < P128 -> p < 2 ^ N.of_nat (ld d (lvl (c_prev c)))) prefixes /\
  (g < 63)%nat /\ g = (ld d (Z.to_nat h) - prev_ld d prefixes c)%nat /\
  (N.of_nat (length prefixes) * 2 ^ N.of_nat g) mod P128 < 2 ^ 63 /\
  validate_evaluation_context d c = Ok tt.
Proof.
  clear - W.
  intros T h prefixes c g Hok H. unfold evaluate_until_checks in H.
  bind_inv H. destruct a. pose proof (context_prev _ _ Hb) as (Hpv & _).
  bind_inv H. apply check_ok in Hb0. destruct (atz_params h ltac:(lia)) as (p & Hp & Hat).
  rewrite Hat in H. cbn [bind] in H. bind_inv H. bind_inv H. apply check_ok in Hb2. subst a0.
  bind_inv H. apply check_ok in Hb2. bind_inv H. apply check_ok, eqb_prop in Hb3.
  bind_inv H. rename a3 into pl. bind_inv H. apply check_ok in Hb5. bind_inv H. apply check_ok in Hb6.
  injection H as H. cbv zeta in *. subst g.
  apply (value_types_are_equal_denotes T) in Hb1; auto.
  assert (HE : prefixes = [] <-> (c_prev c < 0)%Z).
  { rewrite <- Z.ltb_lt, Hb3, Nat.eqb_eq. destruct prefixes; cbn; split; congruence. }
  assert (HPL : pl = prev_ld d prefixes c /\ Forall (fun p => p < P128 -> p < 2 ^ N.of_nat (ld d (lvl (c_prev c)))) prefixes).
  { unfold prev_ld. destruct (Nat.eqb_spec (length prefixes) 0) as [E|E].
    - inv Hb4. split; auto. destruct prefixes; [constructor|discriminate].
    - destruct (atz_params (c_prev c) ltac:(lia)) as (q & Hq & Hqa). rewrite Hqa in Hb4. cbn [bind] in Hb4.
      fold (lvl (c_prev c)) in Hq. destruct (wf_ld_z _ W _ _ Hq) as [_ Hld].
      bind_inv Hb4. injection Hb4 as <-. split; [auto|]. match type of Hb7 with _ = Ok ?u => destruct u end. apply iterM_ok in Hb7.
      eapply Forall_impl; [|exact Hb7]. cbv beta. intros x Hx HP. apply check_ok in Hx.
      rewrite <- Hld in Hx. apply negb_true_iff, andb_false_iff in Hx. destruct Hx as [Hx|Hx].
      + apply Nat.ltb_ge in Hx. pose proof (ld_le_128 d W (lvl (c_prev c))).
        replace (ld d (lvl (c_prev c))) with 128%nat by lia. exact HP.
      + apply N.leb_gt in Hx. auto. }
  destruct HPL as [-> HF].
  split; [lia|]. split; [split; eauto|]. split; [lia|]. split; [auto|]. split; [auto|]. split; [lia|].
  split; [auto|]. split; [|auto].
  change (2 ^ 63) with 9223372036854775808. lia.
Qed.

(** A call whose checks fail changes nothing. *)
Lemma until_rejected : forall T h prefixes c, (forall g, evaluate_until_checks d T h prefixes c <> Ok g) ->
  evaluate_until aes d T h prefixes c = (Err INVALID_ARGUMENT, c).
Proof.
  intros T h prefixes c H. unfold evaluate_until.
  rewrite (ooi_not_ok _ _ (until_checks_ooi T h prefixes c) H). reflexivity.
Qed.

(** The context after ExpandAndUpdateContext. *)
Lemma until_ctx_or : forall key c T h prefixes r c', ctx_inv aes d key c -> cty_ok T = true ->
  Forall (fun p => p < P128) prefixes ->
  evaluate_until aes d T h prefixes c = (r, c') ->
  ctx_inv aes d key c' /\
  ((exists l, r = Ok l) -> c' = until_ctx aes d key (Z.to_nat h) prefixes c /\ until_covered d prefixes c = true).
Proof.
  intros key c T h prefixes r c' I Hok HP H. unfold evaluate_until in H.
  destruct (evaluate_until_checks d T h prefixes c) as [g| | |] eqn:EC;
    try (inv H; split; [auto|intros [l Hl]; discriminate]).
  destruct (until_checks_inv _ _ _ _ _ Hok EC) as (Hh & HT & Ho & He & HF & _ & _ & _ & HV).
  fold (lvl h) in *. set (h' := lvl h) in *.
  assert (Hh' : (h' < nlevels d)%nat) by (unfold h', lvl; lia).
  assert (HF' : Forall (fun p => p < 2 ^ N.of_nat (ld d (lvl (c_prev c)))) prefixes).
  { rewrite Forall_forall in *. auto. }
  fold (lvl (c_prev c)) in H.
  destruct (build_prefix_map d prefixes (lvl (c_prev c)) []) as [tis pm] eqn:EB.
  destruct (expand_and_update_context aes d h' tis c) as [e c''] eqn:EX.
  injection H as H1 H2. subst c''.
  assert (HR : ctx_inv aes d key c' /\ ((exists l, e = Ok l) ->
     c' = until_ctx aes d key h' prefixes c /\ until_covered d prefixes c = true)).
  { unfold expand_and_update_context in EX. unfold until_ctx.
    destruct (build_prefix_map_spec _ _ _ _ _ _ EB) as ((suf & Hsuf & Hin) & HL & HN).
    cbn [app] in Hsuf. subst suf.
    destruct (Nat.eqb_spec (length prefixes) 0) as [E|E].
    - destruct prefixes; [|discriminate]. cbn in EB. inv EB. cbn [length Nat.eqb] in EX.
      match type of EX with (match ?m with _ => _ end = _) => destruct m end; injection EX as <- <-;
        (split; [auto|intros [l Hl]; try discriminate; auto]).
      destruct I as [i1 i2 i3 i4 i5 i6 i7]. constructor; cbn; auto; lia.
    - assert (Hpos : (0 <= c_prev c)%Z).
      { destruct (Z.lt_ge_cases (c_prev c) 0) as [HX|]; auto. apply He in HX. subst prefixes. cbn in E. congruence. }
      set (q := lvl (c_prev c)) in *. assert (Hq : (q < h')%nat) by (unfold q, h', lvl; lia).
      assert (HFt : Forall (fun p => p < 2 ^ N.of_nat (h2t d q)) tis).
      { apply Forall_forall. intros t Ht. destruct (Hin t Ht) as (p & Hpin & ->).
        apply tree_index_lt; auto; try lia. rewrite Forall_forall in HF'. auto. }
      destruct (Nat.eqb_spec (length tis) 0) as [E2|E2].
      { exfalso. destruct prefixes as [|p0 pr]; [cbn in E; congruence|].
        pose proof (build_prefix_map_in d _ _ _ _ p0 EB ltac:(left; auto)) as HX.
        destruct tis; [destruct HX|discriminate]. }
      fold (lvl (c_prev c)) in EX. fold q in EX.
      rewrite (compute_partial_eq aes d W key) in EX by (auto; lia).
      assert (Hcov : forallb (covered d c (h2t d q)) tis = true -> until_covered d prefixes c = true).
      { intros HX. rewrite forallb_forall in HX. unfold until_covered. apply forallb_forall. intros t Ht.
        apply in_map_iff in Ht. destruct Ht as (p & <- & Hp). apply HX.
        eapply build_prefix_map_in; eauto. }
      destruct (forallb (covered d c (h2t d q)) tis) eqn:Ef; cbn [bind] in EX.
      2:{ inv EX. split; [auto|intros [l Hl]; discriminate]. }
      cbn [with_partials c_prev] in EX. rewrite h2t_at in EX by (auto; pose proof (inv_prev _ _ _ _ I); lia).
      cbn [bind fst] in *.
      set (c1 := with_partials aes d key c tis q (Nat.ltb h' (nlevels d - 1))) in *.
      pose proof (inv_prev _ _ _ _ I) as Hpr.
      assert (HI1 : forall z, (-1 <= z < Z.of_nat (nlevels d))%Z -> ctx_inv aes d key (with_prev c1 z)).
      { intros z Hz. apply with_partials_inv; auto; lia. }
      assert (Hc1 : with_prev c1 (c_prev c) = c1) by reflexivity.
      match type of EX with (match ?m with _ => _ end = _) => destruct m end; injection EX as <- <-;
        (split; [first [apply HI1; lia|rewrite <- Hc1; apply HI1; lia]|intros [l Hl]; try discriminate]).
      rewrite EB. split; [reflexivity|auto]. }
  destruct HR as [HR1 HR2]. split; [auto|].
  intros [l Hl]. apply HR2. subst r. apply bind_ok in Hl. destruct Hl as (e' & He' & _). eauto.
Qed.

Lemma at_checks_inv : forall key h points, evaluate_at_checks d key h points = Ok tt ->
  (0 <= h < Z.of_nat (nlevels d))%Z /\ key_ok d key /\
  Forall (fun x => x < 2 ^ N.of_nat (ld d (Z.to_nat h))) points.
Proof.
  clear - W.
  intros key h points H. unfold evaluate_at_checks in H. bind_inv H. apply check_ok in Hb.
  bind_inv H. apply check_ok in Hb0. cbv zeta in H. bind_inv H. split; [lia|]. split; [exact H|].
  match type of Hb1 with _ = Ok ?u => destruct u end. apply iterM_ok in Hb1. rewrite max_point_check in Hb1 by (apply ld_le_128; auto).
  eapply Forall_impl; [|exact Hb1]. cbv beta. intros x Hx. apply check_ok, N.leb_le in Hx.
  assert (2 ^ N.of_nat (ld d (Z.to_nat h)) <> 0) by (apply N.pow_nonzero; lia). lia.
Qed.

Lemma at_checks_ooi : forall key h points, ok_or_invalid (evaluate_at_checks d key h points).
Proof.
  clear - W.
  intros. unfold evaluate_at_checks. do 2 (apply ooi_bind; [apply ooi_check|intros _ _]). cbv zeta.
  apply ooi_bind; [apply ooi_iterM; intros; apply ooi_check|]. intros _ _. apply validate_dpf_key_ooi; auto.
Qed.

(** EvaluateAt on a context, without assumptions on the length of the hash output. *)
Lemma finish_ext : forall T key h points, (h < nlevels d)%nat -> key_ok d key ->
  Forall (fun x => x < 2 ^ N.of_nat (ld d h)) points ->
  let tis := map (fun x => domain_to_tree_index d x h) points in
  evaluate_at_finish aes d T key h points tis (map (node_at aes key (h2t d h)) tis) (h2t d h)
  = evaluate_at_finish aes d T key h points tis (map (fun _ => (key_seed key, key_bit key)) points) 0.
Proof.
  intros T key h points Hh Hk HF tis. unfold evaluate_at_finish.
  unfold at_or_ub. rewrite h2t_nth_error by auto. cbn [bind].
  pose proof (key_ok_h2t d W key h Hk Hh) as Hlen.
  rewrite !subspan_ok by lia. cbn [bind]. rewrite Nat.sub_diag, Nat.sub_0_r. cbn [firstn skipn].
  assert (H128 : Forall (fun x => x < P128) tis).
  { unfold tis. rewrite Forall_map. eapply Forall_impl; [|exact HF]. cbv beta. intros x Hx.
    apply (tree_index_lt d W h Hh) in Hx. eapply N.lt_le_trans; [exact Hx|]. apply pow_le_P128.
    pose proof (wf_h2t_ld _ W h Hh). pose proof (ld_le_128 d W h). lia. }
  rewrite !evaluate_seeds_walk by (auto; unfold tis; rewrite ?map_length; auto). cbn [bind].
  assert (HE : zip2 (fun p n => walk aes (map corr_of []) p n) tis (map (node_at aes key (h2t d h)) tis)
     = zip2 (fun p n => walk aes (map corr_of (firstn (h2t d h) (k_cws key))) p n) tis
        (map (fun _ => (key_seed key, key_bit key)) points)).
  { unfold tis. clear. induction points as [|x l IH]; cbn [map zip2]; auto. f_equal; auto. }
  rewrite HE. reflexivity.
Qed.

Lemma evaluate_at_ctx_gen : forall key c T h points, ctx_inv aes d key c -> (h < nlevels d)%nat ->
  level_type d h T -> Forall (fun x => x < 2 ^ N.of_nat (ld d h)) points -> points <> [] ->
  evaluate_at_ctx aes d T (Z.of_nat h) points c
  = if at_covered d h points c
    then (evaluate_at aes d T key (Z.of_nat h) points,
          match evaluate_at aes d T key (Z.of_nat h) points with
          | Ok _ => with_prev (at_ctx aes d key h points c) (Z.of_nat h)
          | _ => at_ctx aes d key h points c
          end)
    else (Err INVALID_ARGUMENT, c).
Proof.
  intros key c T h points I Hh HT HF Hne. unfold evaluate_at_ctx, evaluate_at.
  rewrite (ctx_inv_key _ _ _ _ I). pose proof (inv_key_ok _ _ _ _ I) as HK.
  rewrite evaluate_at_checks_ok by auto. cbn [bind].
  destruct (Nat.eqb_spec (length points) 0) as [E|_].
  { destruct points; [congruence|discriminate]. }
  rewrite Nat2Z.id, evaluate_at_indices_map by auto.
  assert (HFt : Forall (fun p => p < 2 ^ N.of_nat (h2t d h)) (map (fun x => domain_to_tree_index d x h) points)).
  { rewrite Forall_map. eapply Forall_impl; [|exact HF]. cbv beta. intros x Hx. apply tree_index_lt; auto. }
  rewrite (compute_partial_eq aes d W key) by auto. unfold at_covered.
  destruct (forallb _ _); auto.
  rewrite finish_ext by auto. fold (at_ctx aes d key h points c).
  destruct (evaluate_at_finish _ _ _ _ _ _ _ _ _); reflexivity.
Qed.

Lemma at_ctx_or : forall key c T h points r c', ctx_inv aes d key c ->
  ((h < nlevels d)%nat -> level_type d h T) ->
  evaluate_at_ctx aes d T (Z.of_nat h) points c = (r, c') ->
  ctx_inv aes d key c' /\
  (points <> [] -> (exists l, r = Ok l) ->
   (h < nlevels d)%nat /\ Forall (fun x => x < 2 ^ N.of_nat (ld d h)) points /\
   c' = with_prev (at_ctx aes d key h points c) (Z.of_nat h)).
Proof.
  intros key c T h points r c' I HT H.
  destruct (evaluate_at_checks d (ctx_key c) (Z.of_nat h) points) as [[]| | |] eqn:EC.
  2-4: unfold evaluate_at_ctx in H; rewrite EC in H; inv H; split; auto; intros _ [l Hl]; discriminate.
  apply at_checks_inv in EC. destruct EC as (Hh & _ & HF). rewrite Nat2Z.id in HF.
  destruct points as [|x0 pts].
  { unfold evaluate_at_ctx in H. destruct (evaluate_at_checks _ _ _ _) in H; inv H; split; auto; congruence. }
  assert (Hh' : (h < nlevels d)%nat) by lia.
  rewrite (evaluate_at_ctx_gen key) in H by (auto; congruence).
  destruct (at_covered d h (x0 :: pts) c).
  - injection H as <- <-.
    assert (HI : forall z, (-1 <= z < Z.of_nat (nlevels d))%Z -> ctx_inv aes d key (with_prev (at_ctx aes d key h (x0 :: pts) c) z)).
    { intros z Hz. apply with_partials_inv; auto. rewrite Forall_map. eapply Forall_impl; [|exact HF].
      cbv beta. intros x Hx. apply tree_index_lt; auto. }
    split.
    + pose proof (inv_prev _ _ _ _ I) as Hpr. destruct (evaluate_at _ _ _ _ _ _).
      * apply HI. lia.
      * change (at_ctx aes d key h (x0 :: pts) c) with (with_prev (at_ctx aes d key h (x0 :: pts) c) (c_prev c)). apply HI. lia.
      * change (at_ctx aes d key h (x0 :: pts) c) with (with_prev (at_ctx aes d key h (x0 :: pts) c) (c_prev c)). apply HI. lia.
      * change (at_ctx aes d key h (x0 :: pts) c) with (with_prev (at_ctx aes d key h (x0 :: pts) c) (c_prev c)). apply HI. lia.
    + intros _ [l Hl]. split; auto. split; auto. rewrite Hl. auto.
  - inv H. split; auto. intros _ [l Hl]. discriminate.
Qed.

End Reach.

(** * Reached contexts *)
Section After.
Variable aes : N -> N -> N.
Variables (F : fops) (ps : list param) (types : list cty) (d : dpf).
Hypothesis HC : created F ps types d.
Hypothesis HTy : all_typed ps.

Let W : wf d.
Proof. exact (proj1 (created_wf _ _ _ _ HC)). Qed.
Let HLn : nlevels d = length ps.
Proof. exact (created_len _ _ _ _ HC). Qed.

Lemma after_inv : forall key c prev stored, after aes d ps key c prev stored ->
  ctx_inv aes d key c /\ c_prev c = prev_z prev /\
  match stored with
  | None => c_partials c = []
  | Some (q, l) => (q < nlevels d)%nat /\ c_plevel c = Z.of_nat q /\ l <> [] /\ c_partials c <> [] /\
      forall y, In y (map pe_prefix (c_partials c)) <-> In y (map (fun x => domain_to_tree_index d x q) l)
  end.
Proof.
  intros key c prev stored H. induction H as [c Hc|c prev stored h T prefixes r c' HA IH Hok HP HU|c prev stored h T points r c' HA IH HT Hne HU].
  - destruct (create_context_inv aes d W key c) as (HI & Hp & Hpa); auto.
    eapply created_params_match; eauto.
  - destruct IH as (HI & Hpv & Hst).
    destruct (until_ctx_or aes d W key c T h prefixes (Ok r) c' HI Hok HP HU) as (HI' & Hc').
    destruct (Hc' ltac:(eauto)) as [-> Hcov]. clear Hc'.
    unfold evaluate_until in HU. destruct (evaluate_until_checks d T h prefixes c) as [g| | |] eqn:EC; try discriminate.
    clear HU.
    destruct (until_checks_inv d W _ _ _ _ _ Hok EC) as (Hh & _ & Ho & He & HF & _ & _ & _ & _).
    split; auto. split.
    { unfold until_ctx. destruct (Nat.eqb (length prefixes) 0); reflexivity. }
    unfold until_ctx. destruct prev as [q|].
    + rewrite Hpv in *. cbn [prev_z] in *. destruct (Nat.eqb_spec (length prefixes) 0) as [E|E].
      { exfalso. assert (prefixes = []) by (destruct prefixes; auto; discriminate). apply He in H. lia. }
      unfold lvl in *. rewrite Nat2Z.id in *. cbn [with_prev with_partials c_partials c_plevel].
      replace (Nat.eqb (S (Z.to_nat h)) (length ps)) with (negb (Nat.ltb (Z.to_nat h) (nlevels d - 1))) by lia.
      destruct (Nat.ltb (Z.to_nat h) (nlevels d - 1)); cbn [negb]; auto.
      destruct (build_prefix_map d prefixes q []) as [tis pm] eqn:EB.
      destruct (build_prefix_map_spec _ _ _ _ _ _ EB) as ((suf & Hsuf & Hin) & HL & HN).
      cbn [app] in Hsuf. subst suf. cbn [fst].
      split; [lia|]. split; auto. split; [intros ->; cbn in E; congruence|]. split.
      { destruct prefixes as [|p0 pr]; [cbn in E; congruence|].
        pose proof (build_prefix_map_in d _ _ _ _ p0 EB ltac:(left; auto)) as HX.
        destruct tis; [destruct HX|discriminate]. }
      intros y. rewrite map_map. cbn [pe_prefix]. rewrite map_id. split.
      * intros Hy. destruct (Hin y Hy) as (p & Hp & ->). apply in_map_iff. eauto.
      * intros Hy. apply in_map_iff in Hy. destruct Hy as (p & <- & Hp). eapply build_prefix_map_in; eauto.
    + assert (prefixes = []) by (apply He; rewrite Hpv; cbn; lia). subst prefixes. cbn [length Nat.eqb].
      destruct stored as [[q l]|]; exact Hst.
  - destruct IH as (HI & Hpv & Hst).
    destruct (at_ctx_or aes d W key c T h points (Ok r) c' HI) as (HI' & Hc'); auto.
    { intros _. eapply level_has_type; eauto. }
    destruct (Hc' Hne ltac:(eauto)) as (Hh & HF & ->). split; auto. split; [reflexivity|].
    split; auto. split; auto. split; auto. split.
    { cbn. destruct points; [congruence|discriminate]. }
    intros y. cbn [with_prev at_ctx with_partials c_partials]. rewrite !map_map. cbn [pe_prefix]. tauto.
Qed.

Lemma covered_iff : forall key c prev q l, after aes d ps key c prev (Some (q, l)) ->
  forall h x, (h < nlevels d)%nat -> (q <= h)%nat ->
  (covered d c (h2t d h) (domain_to_tree_index d x h) = true <->
   In (domain_to_tree_index d (N.shiftr x (N.of_nat (ld d h - ld d q))) q)
      (map (fun y => domain_to_tree_index d y q) l)).
Proof.
  intros key c prev q l HA h x Hh Hq. destruct (after_inv _ _ _ _ HA) as (HI & _ & Hqn & Hpl & _ & Hne & Hin).
  unfold covered. rewrite Hpl. unfold lvl. rewrite Nat2Z.id.
  destruct (Nat.eqb_spec (length (c_partials c)) 0) as [E|_].
  { destruct (c_partials c); [congruence|discriminate]. }
  assert (Hm : (h2t d q <= h2t d h)%nat).
  { destruct (Nat.eq_dec q h) as [->|]; [lia|]. pose proof (wf_h2t_mono _ W q h ltac:(lia) Hh). lia. }
  destruct (Nat.ltb_spec (h2t d h) (h2t d q)); [lia|]. cbn [orb].
  rewrite <- Hin, (tree_index_prefix aes F ps types d HC) by auto. rewrite existsb_exists. split.
  - intros (e & He & Heq). apply N.eqb_eq in Heq. rewrite <- Heq. apply in_map. auto.
  - intros HX. apply in_map_iff in HX. destruct HX as (e & He & Hin'). exists e. split; auto. apply N.eqb_eq. auto.
Qed.

Lemma extends_covered : forall key c prev stored, after aes d ps key c prev stored ->
  forall h x, (h < nlevels d)%nat -> extends ps stored h x ->
  covered d c (h2t d h) (domain_to_tree_index d x h) = true.
Proof.
  intros key c prev stored HA h x Hh HE. destruct stored as [[q l]|].
  - destruct (after_inv _ _ _ _ HA) as (HI & _ & Hqn & Hpl & _).
    destruct HE as [HE|HE].
    + unfold covered. rewrite Hpl. unfold lvl. rewrite Nat2Z.id.
      pose proof (wf_h2t_mono _ W h q HE Hqn). destruct (Nat.ltb_spec (h2t d h) (h2t d q)); [|lia].
      rewrite orb_true_r. reflexivity.
    + destruct (Nat.lt_ge_cases h q) as [HX|HX].
      { unfold covered. rewrite Hpl. unfold lvl. rewrite Nat2Z.id.
        pose proof (wf_h2t_mono _ W h q HX Hqn). destruct (Nat.ltb_spec (h2t d h) (h2t d q)); [|lia].
        rewrite orb_true_r. reflexivity. }
      eapply covered_iff; eauto.
      rewrite !(created_ld _ _ _ _ _ HC) in HE by lia.
      replace (N.of_nat (ld d h) - N.of_nat (ld d q)) with (N.of_nat (ld d h - ld d q)) in HE by lia.
      rewrite <- N.shiftr_div_pow2 in HE. apply in_map_iff. eauto.
  - destruct (after_inv _ _ _ _ HA) as (_ & _ & Hpa). unfold covered. rewrite Hpa. reflexivity.
Qed.

(** EvaluateAt on a reached context. *)
Theorem at_ctx_extends : forall key c prev stored h T points, after aes d ps key c prev stored ->
  level_has ps h T -> Forall (fun x => x < 2 ^ level_ld ps h) points ->
  Forall (extends ps stored h) points ->
  fst (evaluate_at_ctx aes d T (Z.of_nat h) points c) = evaluate_at aes d T key (Z.of_nat h) points.
Proof.
  intros key c prev stored h T points HA HT HF HE. pose proof (level_has_lt _ _ _ HT) as Hh.
  destruct (after_inv _ _ _ _ HA) as (HI & _ & _).
  rewrite (created_ld _ _ _ _ _ HC Hh) in HF.
  destruct points as [|x0 pts].
  { unfold evaluate_at_ctx, evaluate_at. rewrite (ctx_inv_key _ _ _ _ HI).
    rewrite evaluate_at_checks_ok; auto; [lia|apply (inv_key_ok _ _ _ _ HI)]. }
  rewrite (evaluate_at_ctx_gen aes d W key); auto; try congruence; try lia.
  2:{ eapply level_has_type; eauto. }
  replace (at_covered d h (x0 :: pts) c) with true; [reflexivity|]. symmetry. unfold at_covered.
  apply forallb_forall. intros t Ht. apply in_map_iff in Ht. destruct Ht as (x & <- & Hx).
  rewrite Forall_forall in HE. eapply extends_covered; eauto. lia.
Qed.

(** A point or prefix in a tree block that no stored element extends into is rejected. *)
Theorem at_ctx_not_extends : forall key c prev q l h T points x, after aes d ps key c prev (Some (q, l)) ->
  level_has ps h T -> Forall (fun x => x < 2 ^ level_ld ps h) points -> (q <= h)%nat ->
  In x points ->
  ~ In (domain_to_tree_index d (N.shiftr x (N.of_nat (ld d h - ld d q))) q) (map (fun y => domain_to_tree_index d y q) l) ->
  evaluate_at_ctx aes d T (Z.of_nat h) points c = (Err INVALID_ARGUMENT, c).
Proof.
  intros key c prev q l h T points x HA HT HF Hq Hx HN. pose proof (level_has_lt _ _ _ HT) as Hh.
  destruct (after_inv _ _ _ _ HA) as (HI & _ & _).
  rewrite (created_ld _ _ _ _ _ HC Hh) in HF.
  rewrite (evaluate_at_ctx_gen aes d W key); auto; try lia.
  2:{ eapply level_has_type; eauto. }
  2:{ intros ->. destruct Hx. }
  destruct (at_covered d h points c) eqn:E; auto. exfalso. apply HN.
  unfold at_covered in E. rewrite forallb_forall in E.
  eapply covered_iff; eauto; [lia|]. apply E. apply (in_map (fun x => domain_to_tree_index d x h)). auto.
Qed.

Theorem until_not_extends : forall key c q' q l h T prefixes p, after aes d ps key c (Some q') (Some (q, l)) ->
  cty_ok T = true -> Forall (fun p => p < P128) prefixes ->
  In p prefixes -> (q <= q')%nat ->
  ~ In (domain_to_tree_index d (N.shiftr p (N.of_nat (ld d q' - ld d q))) q) (map (fun y => domain_to_tree_index d y q) l) ->
  evaluate_until aes d T h prefixes c = (Err INVALID_ARGUMENT, c).
Proof.
  intros key c q' q l h T prefixes p HA Hok HP Hp Hq HN.
  destruct (after_inv _ _ _ _ HA) as (HI & Hpv & _). cbn [prev_z] in Hpv.
  pose proof (inv_prev _ _ _ _ HI) as Hpr.
  unfold evaluate_until.
  destruct (evaluate_until_checks d T h prefixes c) as [g| | |] eqn:EC.
  2-4: pose proof (until_checks_ooi d W T h prefixes c) as HO; rewrite EC in HO; cbn in HO; try tauto; subst; reflexivity.
  destruct (until_checks_inv d W _ _ _ _ _ Hok EC) as (Hh & HT & Ho & He & HF & _ & _ & _ & HV).
  rewrite Hpv in *. unfold lvl in *. rewrite Nat2Z.id in *.
  destruct (build_prefix_map d prefixes q' []) as [tis pm] eqn:EB.
  destruct (build_prefix_map_spec _ _ _ _ _ _ EB) as ((suf & Hsuf & Hin) & HL & HNn).
  cbn [app] in Hsuf. subst suf.
  pose proof (build_prefix_map_in d _ _ _ _ p EB Hp) as Hpt.
  unfold expand_and_update_context.
  destruct (Nat.eqb_spec (length tis) 0) as [E2|E2].
  { destruct tis; [destruct Hpt|discriminate]. }
  rewrite Hpv, Nat2Z.id, (compute_partial_eq aes d W key); auto; [|lia|].
  2:{ apply Forall_forall. intros t Ht. destruct (Hin t Ht) as (p' & Hpin & ->).
      apply tree_index_lt; auto; try lia. rewrite Forall_forall in HF, HP. auto. }
  destruct (forallb (covered d c (h2t d q')) tis) eqn:Ef; cbn [bind]; auto.
  exfalso. apply HN. rewrite forallb_forall in Ef.
  eapply covered_iff; eauto. lia.
Qed.

End After.
