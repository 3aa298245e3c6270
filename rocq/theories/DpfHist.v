(** Proofs about sequences of calls on contexts of created DPFs. *)
From Coq Require Import List NArith ZArith QArith Lia Bool ZifyBool ZifyNat ZifyN.
From Verif Require Import Base ListUtil ValueTypesModel ValueTypesSpec ValueTypesProofs
  ConvProofs BitsProofs TypeProofs DpfModel DpfTree DpfWf DpfGen DpfEval DpfPoint DpfCtx DpfSpec.
Import ListNotations.
Ltac Zify.zify_post_hook ::= Z.div_mod_to_equations.
Open Scope N_scope.

(** * Created DPFs and their parameters *)

Lemma level_has_type : forall F ps types d h T, created F ps types d -> level_has ps h T ->
  level_type d h T.
Proof.
  intros F ps types d h T HC (Hok & p & Hp & HD). destruct (created_wf _ _ _ _ HC) as (_ & _ & HN).
  destruct (HN h p Hp) as (q & Hq & _ & Hty). split; auto. exists q. split; auto. congruence.
Qed.

Lemma created_ld : forall F ps types d h, created F ps types d -> (h < length ps)%nat ->
  level_ld ps h = N.of_nat (ld d h).
Proof.
  intros F ps types d h HC Hh. destruct (created_wf _ _ _ _ HC) as (W & HL & HN).
  unfold level_ld. destruct (nth_error ps h) as [p|] eqn:E.
  2:{ apply nth_error_None in E. lia. }
  destruct (HN h p E) as (q & Hq & Hld & _). destruct (wf_ld_z _ W _ _ Hq) as [_ ->]. lia.
Qed.

Lemma created_len : forall F ps types d, created F ps types d -> nlevels d = length ps.
Proof. intros. destruct (created_wf _ _ _ _ H) as (_ & HL & _). auto. Qed.

Lemma created_last_ld : forall F ps types d, created F ps types d -> last_ld ps = N.of_nat (ld_last d).
Proof.
  intros F ps types d HC. unfold last_ld, ld_last. pose proof (created_len _ _ _ _ HC) as HL.
  rewrite <- HL. apply (created_ld _ _ _ _ _ HC). destruct (created_wf _ _ _ _ HC) as (W & _).
  pose proof (wf_pos _ W). lia.
Qed.

Lemma level_has_lt : forall ps h T, level_has ps h T -> (h < length ps)%nat.
Proof. intros ps h T (_ & p & Hp & _). apply nth_error_Some. congruence. Qed.

Lemma alpha_prefix_shiftr : forall F ps types d alpha h, created F ps types d -> (h < length ps)%nat ->
  alpha_prefix ps alpha h = N.shiftr alpha (N.of_nat (ld_last d - ld d h)).
Proof.
  intros F ps types d alpha h HC Hh. unfold alpha_prefix.
  rewrite (created_last_ld _ _ _ _ HC), (created_ld _ _ _ _ _ HC Hh), N.shiftr_div_pow2.
  do 2 f_equal. lia.
Qed.

(** Enough pseudorandom bytes for types of the shape of C17. *)
Lemma shape_enough : forall d h T, wf d -> level_type d h T -> bits_shape T = true ->
  enough_bytes T (16 * blocks d h).
Proof.
  intros d h T W (Hok & p & Hp & HD) Hs. destruct (wf_bits _ W h p Hp) as (F & sec & bits & HB & HBl).
  rewrite HBl. eapply bits_needed_enough; eauto. rewrite <- (bits_needed_denotes F T (p_type p)) by auto. eauto.
Qed.

(** Parameters of a created DPF are equal to themselves. *)
Lemma value_types_equal_refl : forall T t, denotes t T -> value_types_are_equal t t = Ok true.
Proof.
  induction T as [w|w m|w|ts IH] using cty_ind'; intros p H; apply denotes_inv in H; cbv beta iota in H.
  - subst. cbn. rewrite Z.eqb_refl. auto.
  - destruct H as (i & -> & He). cbn [value_types_are_equal].
    rewrite (proj2 (vinteger_to_uint128_encodes i m)) by auto. cbn [bind].
    rewrite Z.eqb_refl, N.eqb_refl. auto.
  - subst. cbn. rewrite Z.eqb_refl. auto.
  - destruct H as (ps & -> & HF). cbn [value_types_are_equal]. rewrite Nat.eqb_refl.
    revert ps HF. induction ts as [|t ts IHts]; intros ps HF; inversion HF as [|a b la lb Hd HF' E1 E2]; subst; cbn [types_equal_list]; auto.
    fcons IH IHh IHt. rewrite (IHh _ Hd). cbn [bind]. rewrite IHts by auto. reflexivity.
Qed.

(** Every level has a C++ type. *)
Definition all_typed (ps : list param) : Prop :=
  forall h, (h < length ps)%nat -> exists T, level_has ps h T.

Lemma almost_equal_refl : forall q, almost_equal (DFin q) (DFin q) = true.
Proof.
  intros q. cbn. assert (H : Qle_bool (q - q) (1 # 10000) = true).
  { apply Qle_bool_iff. setoid_replace (q - q)%Q with 0%Q by ring. discriminate. }
  rewrite H. reflexivity.
Qed.

Lemma created_params_match : forall F ps types d, created F ps types d -> all_typed ps ->
  parameters_match (d_params d) (d_params d) = Ok tt.
Proof.
  intros F ps types d HC HT. apply parameters_match_refl_gen. apply Forall_forall. intros q Hq.
  apply In_nth_error in Hq. destruct Hq as (h & Hq).
  assert (Hh : (h < length ps)%nat).
  { rewrite <- (created_len _ _ _ _ HC). apply nth_error_Some. congruence. }
  destruct (HT h Hh) as (T & HTl). pose proof HTl as HTl'.
  apply (level_has_type _ _ _ _ _ _ HC) in HTl'. destruct HTl' as (Hok & q' & Hq' & HD).
  assert (q' = q) by congruence. subst q'.
  unfold parameters_are_equal. rewrite Z.eqb_refl. cbn [negb].
  assert (HS : exists x, p_sec q = DFin x).
  { destruct HC as (d0 & Hc & _ & ->). pose proof (fold_register types d0) as HR. cbv zeta in HR.
    destruct HR as (HR & _). rewrite HR in Hq.
    unfold create_incremental in Hc. bind_inv Hc. destruct a as [[ps' needed] h2ts].
    bind_inv Hc. inv Hc. cbn [d_params] in Hq.
    unfold validator_create in Hb. bind_inv Hb. bind_inv Hb. destruct a1 as [? ?]. inv Hb.
    unfold validate_parameters in Hb1. bind_inv Hb1. destruct a0.
    rewrite nth_error_map in Hq. destruct (nth_error ps h) as [p|] eqn:Ep; inv Hq.
    destruct (validate_parameters_loop_inv _ _ Hb1 h p Ep) as (_ & _ & _ & _ & H1 & H2 & H3).
    unfold with_default_sec. destruct (dbl_is_zero (p_sec p)); [eexists; reflexivity|].
    destruct (p_sec p) as [x|[|]|]; cbn in *; try discriminate. eauto. }
  destruct HS as (x & Hx). rewrite Hx, almost_equal_refl. cbn [orb negb].
  eapply value_types_equal_refl; eauto.
Qed.

(** * Outputs *)

Lemma extensions_range : forall p g, extensions p (N.of_nat g) = range (p * 2 ^ N.of_nat g) (2 ^ g).
Proof.
  intros p g. unfold extensions, range. rewrite <- pow2_nat_N, Nat2N.id. reflexivity.
Qed.

Section Hist.
Variable aes : N -> N -> N.
Variables (F : fops) (ps : list param) (types : list cty) (d : dpf).
Hypothesis HC : created F ps types d.

Let W : wf d.
Proof. exact (proj1 (created_wf _ _ _ _ HC)). Qed.
Let HLn : nlevels d = length ps.
Proof. exact (created_len _ _ _ _ HC). Qed.

(** The state of a context after calls with previous level [prev]. *)
Definition prev_z (prev : option nat) : Z := match prev with None => -1 | Some q => Z.of_nat q end.

Lemma outputs_until_points : forall prev h prefixes c, (h < length ps)%nat -> c_prev c = prev_z prev ->
  match prev with None => prefixes = [] | Some q => (q < h)%nat /\ prefixes <> [] end ->
  outputs ps prev h prefixes = until_points d h prefixes c.
Proof.
  intros prev h prefixes c Hh Hc Hp. unfold outputs, until_points.
  rewrite (created_ld _ _ _ _ _ HC Hh). destruct prev as [q|].
  - destruct Hp as [Hq Hne]. destruct (Nat.eqb_spec (length prefixes) 0) as [E|_].
    { destruct prefixes; [congruence|discriminate]. }
    rewrite (created_ld _ _ _ _ q HC) by lia. rewrite Hc. cbn [prev_z]. unfold lvl. rewrite Nat2Z.id.
    replace (N.of_nat (ld d h) - N.of_nat (ld d q)) with (N.of_nat (ld d h - ld d q)) by lia.
    apply flat_map_ext_in. intros p _. apply extensions_range.
  - subst prefixes. cbn [length Nat.eqb]. rewrite extensions_range, N.mul_0_l. reflexivity.
Qed.

Lemma until_points_in : forall h prefixes c x, (h < nlevels d)%nat ->
  (prefixes <> [] -> (lvl (c_prev c) < h)%nat) ->
  Forall (fun p => p < 2 ^ N.of_nat (ld d (lvl (c_prev c)))) prefixes ->
  In x (until_points d h prefixes c) ->
  x < 2 ^ N.of_nat (ld d h) /\
  (prefixes <> [] -> In (N.shiftr x (N.of_nat (ld d h - ld d (lvl (c_prev c))))) prefixes).
Proof.
  intros h prefixes c x Hh Hlt HF Hx. unfold until_points in Hx.
  destruct (Nat.eqb_spec (length prefixes) 0) as [E|E].
  - apply range_in in Hx. rewrite pow2_nat_N in Hx. split; [lia|]. destruct prefixes; [congruence|discriminate].
  - assert (Hne : prefixes <> []) by (intros ->; apply E; auto). specialize (Hlt Hne).
    set (q := lvl (c_prev c)) in *. pose proof (wf_ld_mono _ W q h Hlt Hh) as Hm.
    apply in_flat_map in Hx. destruct Hx as (p & Hp & Hx). apply range_in in Hx. rewrite pow2_nat_N in Hx.
    rewrite Forall_forall in HF. specialize (HF p Hp). set (g := (ld d h - ld d q)%nat) in *.
    assert (Hpow : 2 ^ N.of_nat (ld d h) = 2 ^ N.of_nat (ld d q) * 2 ^ N.of_nat g).
    { rewrite <- N.pow_add_r. f_equal. unfold g. lia. }
    assert (Hg : 2 ^ N.of_nat g <> 0) by (apply N.pow_nonzero; lia).
    split; [rewrite Hpow; nia|]. intros _. rewrite N.shiftr_div_pow2.
    replace (x / 2 ^ N.of_nat g) with p; auto.
    apply N.div_unique with (x - p * 2 ^ N.of_nat g); lia.
Qed.

Lemma fits_memory : forall prev h prefixes c, c_prev c = prev_z prev ->
  match prev with None => prefixes = [] | Some q => (q < h)%nat /\ prefixes <> [] end ->
  expansion_fits d prev h prefixes -> until_memory d h prefixes c.
Proof.
  intros prev h prefixes c Hc Hp HF. unfold until_memory, prev_tree. unfold expansion_fits in HF.
  fold (h2t d h) in HF. destruct prev as [q|].
  - destruct Hp as [Hq Hne]. destruct (Nat.eqb_spec (length prefixes) 0) as [E|_].
    { destruct prefixes; [congruence|discriminate]. }
    rewrite Hc. cbn [prev_z]. unfold lvl. rewrite Nat2Z.id. exact HF.
  - subst prefixes. exact HF.
Qed.

Lemma gap_prev : forall prev h prefixes c, (h < length ps)%nat -> c_prev c = prev_z prev ->
  match prev with None => prefixes = [] | Some q => (q < h)%nat /\ prefixes <> [] end ->
  gap ps prev h = N.of_nat (ld d h - prev_ld d prefixes c).
Proof.
  intros prev h prefixes c Hh Hc Hp. unfold gap, prev_ld. rewrite (created_ld _ _ _ _ _ HC Hh).
  destruct prev as [q|].
  - destruct Hp as [Hq Hne]. destruct (Nat.eqb_spec (length prefixes) 0) as [E|_].
    { destruct prefixes; [congruence|discriminate]. }
    rewrite (created_ld _ _ _ _ q HC) by lia. rewrite Hc. cbn [prev_z]. unfold lvl. rewrite Nat2Z.id. lia.
  - subst prefixes. cbn [length Nat.eqb]. lia.
Qed.

(** A point whose prefix is stored is covered. *)
Lemma existsb_partials : forall key t (tis : list N) y, In y tis ->
  existsb (fun e => pe_prefix e =? y)
    (map (fun p => {| pe_prefix := p; pe_seed := fst (node_at aes key t p);
                      pe_bit := snd (node_at aes key t p) |}) tis) = true.
Proof.
  intros key t tis y Hy. apply existsb_exists. eexists. split; [apply in_map; exact Hy|].
  cbn. apply N.eqb_refl.
Qed.

Lemma tree_index_prefix : forall x q h, (q <= h)%nat -> (h < nlevels d)%nat ->
  N.shiftr (domain_to_tree_index d x h) (N.of_nat (h2t d h - h2t d q))
  = domain_to_tree_index d (N.shiftr x (N.of_nat (ld d h - ld d q))) q.
Proof.
  intros x q h Hq Hh. unfold domain_to_tree_index, block_bits. rewrite !N.shiftr_shiftr. f_equal.
  pose proof (wf_h2t_ld _ W h Hh). pose proof (wf_h2t_ld _ W q ltac:(lia)).
  destruct (Nat.eq_dec q h) as [->|]; [lia|].
  pose proof (wf_h2t_mono _ W q h ltac:(lia) Hh). pose proof (wf_ld_mono _ W q h ltac:(lia) Hh). lia.
Qed.

Lemma build_prefix_map_in : forall prefixes h tis pm p, build_prefix_map d prefixes h [] = (tis, pm) ->
  In p prefixes -> In (domain_to_tree_index d p h) tis.
Proof.
  clear - d.
  intros prefixes h tis pm p HB Hp. destruct (build_prefix_map_spec _ _ _ _ _ _ HB) as (_ & HL & HN).
  apply In_nth_error in Hp. destruct Hp as (i & Hi).
  destruct (nth_error pm i) as [m|] eqn:Em.
  - destruct (HN _ _ _ Hi Em) as [H1 _]. eapply nth_error_In; eauto.
  - apply nth_error_None in Em. assert (nth_error prefixes i <> None) by congruence.
    apply nth_error_Some in H. lia.
Qed.

Lemma until_ctx_covered : forall key c h prefixes x, (h < nlevels d)%nat ->
  (prefixes = [] -> c_partials c = []) ->
  (prefixes <> [] -> (lvl (c_prev c) < h)%nat) ->
  (prefixes <> [] -> In (N.shiftr x (N.of_nat (ld d h - ld d (lvl (c_prev c))))) prefixes) ->
  covered d (until_ctx aes d key h prefixes c) (h2t d h) (domain_to_tree_index d x h) = true.
Proof.
  intros key c h prefixes x Hh He Hlt Hin. unfold until_ctx, covered.
  destruct (Nat.eqb_spec (length prefixes) 0) as [E|E].
  - cbn [with_prev c_partials]. rewrite He by (destruct prefixes; [auto|discriminate]). reflexivity.
  - assert (Hne : prefixes <> []) by (intros ->; apply E; auto). specialize (Hlt Hne). specialize (Hin Hne).
    set (q := lvl (c_prev c)) in *.
    destruct (build_prefix_map d prefixes q []) as [tis pm] eqn:EB.
    cbn [with_prev with_partials c_partials c_plevel fst].
    destruct (Nat.ltb h (nlevels d - 1)); [|reflexivity].
    assert (Hq : lvl (Z.of_nat q) = q) by (unfold lvl; apply Nat2Z.id). rewrite Hq.
    apply orb_true_iff. right. rewrite tree_index_prefix by lia.
    apply existsb_partials. eapply build_prefix_map_in; eauto.
Qed.

(** Calls return what EvaluateAt returns on the elements they evaluate. *)
Theorem history_evaluate_at : forall key ks c prev (allowed : N -> Prop),
  ctx_inv aes d key c -> pl_ok c -> c_prev c = prev_z prev ->
  match prev with
  | None => c_partials c = []
  | Some q => (q < length ps)%nat /\ forall x, allowed x -> x < 2 ^ N.of_nat (ld d q) /\
        covered d c (h2t d q) (domain_to_tree_index d x q) = true
  end ->
  valid_history ps d prev allowed ks ->
  (forall h T, In T (map call_type ks) -> level_has ps h T -> enough_bytes T (16 * blocks d h)) ->
  run_calls aes d c ks = at_results aes d ps key prev ks.
Proof.
  intros key. induction ks as [|k ks IH]; intros c prev allowed I Hpl Hc Hst HV Hen; auto.
  inversion HV as [|prev' allowed' k' ks' h prefixes Hty Hp Hg Hsz Hfit HV' E1 E2 E3]. subst.
  fold h prefixes in HV', Hfit, Hsz, Hg, Hp.
  pose proof (level_has_lt _ _ _ Hty) as Hhl. fold h in Hhl.
  assert (Hh : (h < nlevels d)%nat) by lia.
  assert (Hp' : match prev with None => prefixes = [] | Some q => (q < h)%nat /\ prefixes <> [] end).
  { destruct prev; tauto. }
  assert (HT : level_type d h (call_type k)) by (eapply level_has_type; eauto).
  assert (Hr : Forall (fun p => p < 2 ^ N.of_nat (ld d (lvl (c_prev c)))) prefixes).
  { destruct prev as [q|]; [|rewrite Hp; constructor]. destruct Hp as (Hq & Hne & HF).
    rewrite Hc. cbn [prev_z]. unfold lvl. rewrite Nat2Z.id. eapply Forall_impl; [|exact HF].
    intros x Hx. apply Hst in Hx. tauto. }
  assert (A : until_args d (call_type k) h prefixes c).
  { constructor; auto.
    - rewrite Hc. destruct prev; cbn [prev_z]; lia.
    - rewrite Hc. destruct prev as [q|]; cbn [prev_z]; [|split; auto; lia].
      destruct Hp' as [_ Hne]. split; intros HX; [congruence|lia].
    - rewrite (gap_prev prev h prefixes c) in Hg by auto. lia.
    - rewrite (gap_prev prev h prefixes c) in Hsz by auto. exact Hsz. }
  assert (HM : until_memory d h prefixes c) by (eapply fits_memory; eauto).
  assert (HE : enough_bytes (call_type k) (16 * blocks d h)).
  { apply Hen; auto. left. auto. }
  assert (Hcov : until_covered d prefixes c = true).
  { unfold until_covered. apply forallb_forall. intros t Ht. apply in_map_iff in Ht.
    destruct Ht as (p & <- & Hpin). destruct prev as [q|].
    - destruct Hp as (Hq & Hne & HF). rewrite Forall_forall in HF. specialize (HF p Hpin).
      rewrite Hc. cbn [prev_z]. unfold lvl. rewrite Nat2Z.id. apply Hst in HF. tauto.
    - rewrite Hp in Hpin. destruct Hpin. }
  pose proof (evaluate_until_eq aes d W key c _ h prefixes I Hpl A HE HM) as HU. rewrite Hcov in HU.
  assert (Hrun : run_call aes d c k = evaluate_until aes d (call_type k) (Z.of_nat h) prefixes c).
  { unfold run_call. unfold h, prefixes. destruct k as [h' T p|T p]; cbn [call_level call_type call_prefixes]; auto.
    unfold evaluate_next. cbn [call_prefixes] in prefixes. fold prefixes.
    destruct prev as [q|].
    - destruct Hp' as [_ Hne]. destruct (Nat.eqb_spec (length prefixes) 0) as [E|_].
      { destruct prefixes; [congruence|discriminate]. }
      rewrite Hc. cbn [prev_z]. f_equal. lia.
    - rewrite Hp'. reflexivity. }
  cbn [run_calls at_results]. fold h prefixes. rewrite Hrun, HU. f_equal.
  - rewrite (outputs_until_points prev h prefixes c) by auto.
    symmetry. apply evaluate_at_eq; auto.
    + apply (inv_key_ok _ _ _ _ I).
    + apply Forall_forall. intros x Hx. eapply until_points_in in Hx; eauto; [tauto|].
      intros Hne. rewrite Hc. destruct prev as [q|]; [|congruence]. cbn [prev_z]. unfold lvl. rewrite Nat2Z.id. tauto.
    + unfold until_points. pose proof (pow2_nat_pos (ld d h)).
      destruct (Nat.eqb_spec (length prefixes) 0) as [E|E].
      * intros HX. apply (f_equal (@length N)) in HX. rewrite range_length in HX. cbn in HX. lia.
      * destruct prefixes as [|p0 pr]; [cbn in E; congruence|]. cbn [flat_map]. intros HX.
        apply (f_equal (@length N)) in HX. rewrite app_length, range_length in HX. cbn in HX.
        pose proof (pow2_nat_pos (ld d h - ld d (lvl (c_prev c)))). lia.
  - apply (IH _ (Some h) (fun x => In x (outputs ps prev h prefixes))).
    + eapply until_ctx_inv; eauto.
    + unfold pl_ok, until_ctx. destruct (Nat.eqb_spec (length prefixes) 0) as [E|E].
      * cbn [with_prev c_partials]. intros HX. destruct prev as [q|].
        -- destruct Hp' as [_ Hne]. destruct prefixes; [congruence|discriminate].
        -- congruence.
      * cbn [with_prev with_partials c_plevel c_prev]. intros _. rewrite Hc.
        destruct prev as [q|].
        -- cbn [prev_z]. unfold lvl. rewrite Nat2Z.id. lia.
        -- rewrite Hp' in E. cbn in E. congruence.
    + cbn [prev_z]. unfold until_ctx. destruct (Nat.eqb (length prefixes) 0); reflexivity.
    + split; auto. intros x Hx. rewrite (outputs_until_points prev h prefixes c) in Hx by auto.
      assert (Hlt : prefixes <> [] -> (lvl (c_prev c) < h)%nat).
      { intros Hne. rewrite Hc. destruct prev as [q|]; [|congruence]. cbn [prev_z]. unfold lvl. rewrite Nat2Z.id. tauto. }
      eapply until_points_in in Hx; eauto. destruct Hx as [Hx1 Hx2]. split; auto.
      apply until_ctx_covered; auto.
      intros HX. destruct prev as [q|]; [|auto]. tauto.
    + exact HV'.
    + intros h' T HT' HL. apply Hen; auto. right. auto.
Qed.

End Hist.
