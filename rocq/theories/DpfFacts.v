(** Consequences of the characterisations, in the form of the properties. *)
From Coq Require Import List NArith ZArith QArith Lia Bool ZifyBool ZifyNat ZifyN.
From Verif Require Import Base ListUtil ValueTypesModel ValueTypesSpec ValueTypesProofs
  ConvProofs BitsProofs TypeProofs DpfModel DpfTree DpfWf DpfGen DpfEval DpfPoint DpfCtx DpfApply
  DpfSpec DpfHist DpfReach DpfSafe DpfCreate.
Import ListNotations.
Ltac Zify.zify_post_hook ::= Z.div_mod_to_equations.
Open Scope N_scope.

Lemma Forall3_map : forall A B C D (R : A -> B -> C -> Prop) (f : D -> A) (g : D -> B) (k : D -> C) l,
  (forall x, In x l -> R (f x) (g x) (k x)) -> Forall3 R (map f l) (map g l) (map k l).
Proof.
  induction l as [|x l IH]; intros H; cbn [map]; constructor.
  - apply H. left. auto.
  - apply IH. intros. apply H. right. auto.
Qed.

Lemma level_type_has : forall F ps types d h T, created F ps types d -> level_type d h T -> level_has ps h T.
Proof.
  intros F ps types d h T HC (Hok & q & Hq & HD). pose proof (created_wf _ _ _ _ HC) as (_ & HL & HN).
  split; auto. destruct (nth_error ps h) as [p|] eqn:Ep.
  - exists p. split; auto. destruct (HN h p Ep) as (q' & Hq' & _ & Hty). congruence.
  - apply nth_error_None in Ep. assert (h < length (d_params d))%nat by (apply nth_error_Some; congruence). lia.
Qed.

Lemma in_outputs_range : forall ps prev h prefixes x,
  match prev with
  | None => True
  | Some q => level_ld ps q <= level_ld ps h /\ Forall (fun p => p < 2 ^ level_ld ps q) prefixes
  end ->
  In x (outputs ps prev h prefixes) -> x < 2 ^ level_ld ps h.
Proof.
  intros ps prev h prefixes x Hp Hx. unfold outputs, extensions in Hx. destruct prev as [q|].
  - destruct Hp as [Hle HF]. apply in_flat_map in Hx. destruct Hx as (p & Hp & Hx).
    apply in_map_iff in Hx. destruct Hx as (i & <- & Hi). apply in_seq in Hi.
    rewrite Forall_forall in HF. specialize (HF p Hp).
    replace (level_ld ps h) with (level_ld ps q + (level_ld ps h - level_ld ps q)) at 2 by lia.
    rewrite N.pow_add_r. set (g := 2 ^ (level_ld ps h - level_ld ps q)) in *.
    assert (N.of_nat i < g) by lia. nia.
  - apply in_map_iff in Hx. destruct Hx as (i & <- & Hi). apply in_seq in Hi. lia.
Qed.

Section Facts.
Variable aes : N -> N -> N.
Variables (F : fops) (ps : list param) (types : list cty) (d : dpf).
Hypothesis HC : created F ps types d.
Let W : wf d := proj1 (created_wf _ _ _ _ HC).

Lemma ld_mono : forall q h, (q <= h)%nat -> (h < length ps)%nat -> level_ld ps q <= level_ld ps h.
Proof.
  intros q h Hq Hh. pose proof (created_len _ _ _ _ HC) as HL.
  rewrite !(created_ld _ _ _ _ _ HC) by lia.
  destruct (Nat.eq_dec q h) as [->|]; [lia|]. pose proof (wf_ld_mono _ W q h). lia.
Qed.

Lemma roomy_enough : forall h T, roomy ps d T -> level_has ps h T -> enough_bytes T (16 * blocks d h).
Proof. intros h T HR HT. apply enough_bytes_consumed; [exact (proj1 HT)|]. exact (HR h HT). Qed.
Lemma shaped : forall h T, level_has ps h T -> bits_shape T = true -> enough_bytes T (16 * blocks d h).
Proof. intros h T HT Hs. eapply shape_enough; eauto. eapply level_has_type; eauto. Qed.
Lemma shape_roomy : forall T, bits_shape T = true -> roomy ps d T.
Proof. intros T Hs h HT. apply enough_bytes_consumed; [exact (proj1 HT)|]. exact (shaped h T HT Hs). Qed.

(** ** Generated keys *)

Section Keys.
Variables (alpha : N) (beta : list pvalue) (seed0 seed1 : N) (k0 k1 : dkey).
Hypothesis Ha : alpha < P128.
Hypothesis HG : generate_keys aes d alpha beta seed0 seed1 = Ok (k0, k1).

Lemma gen_all_typed : all_typed ps.
Proof.
  intros h Hh. pose proof (created_len _ _ _ _ HC) as HL.
  destruct (generate_keys_level aes d W _ _ _ _ _ _ Ha HG) as (_ & _ & _ & _ & _ & _ & _ & _ & _ & _ & HX).
  destruct (HX h ltac:(lia)) as (g & b & _ & _ & HV & _). apply (compute_value_correction_type aes d W) in HV.
  destruct HV as (T & HT). exists T. eapply level_type_has; eauto.
Qed.

Lemma gen_enough : forall h T, level_has ps h T -> enough_bytes T (16 * blocks d h).
Proof.
  intros h T HT. apply (level_has_type _ _ _ _ _ _ HC) in HT.
  destruct (share_sum aes d W alpha beta seed0 seed1 k0 k1 Ha HG h T HT) as (b & v & corrs & _ & _ & _ & HE & _).
  auto.
Qed.

Lemma share_prefix : forall h T, level_has ps h T ->
  exists b v corrs, nth_error beta h = Some b /\ repr T b v /\
    values_to_array T (key_values d k0 h) = Ok corrs /\
    values_to_array T (key_values d k1 h) = Ok corrs /\
    forall x, x < 2 ^ level_ld ps h ->
      gsum T (share aes d T k0 h corrs x) (share aes d T k1 h corrs x)
             (point_function T (alpha_prefix ps alpha h) v x).
Proof.
  intros h T HT. pose proof (level_has_lt _ _ _ HT) as Hh.
  pose proof (level_has_type _ _ _ _ _ _ HC HT) as HT'.
  destruct (share_sum aes d W alpha beta seed0 seed1 k0 k1 Ha HG h T HT')
    as (b & v & corrs & Hb & Hr & _ & _ & H0 & H1 & HS).
  exists b, v, corrs. repeat (split; auto). intros x Hx.
  rewrite (created_ld _ _ _ _ _ HC) in Hx by auto. destruct (HS x Hx) as (W0 & W1 & HE).
  unfold point_function. rewrite (alpha_prefix_shiftr _ _ _ _ _ _ HC) by auto.
  rewrite <- HE. apply vadd_gsum; auto. apply HT.
Qed.

Theorem point_shares : forall h T, level_has ps h T ->
  exists b v, nth_error beta h = Some b /\ repr T b v /\
    forall points, Forall (fun x => x < 2 ^ level_ld ps h) points ->
      exists r0 r1, evaluate_at aes d T k0 (Z.of_nat h) points = Ok r0 /\
        evaluate_at aes d T k1 (Z.of_nat h) points = Ok r1 /\
        reconstruct T (alpha_prefix ps alpha h) v points r0 r1.
Proof.
  intros h T HT. pose proof (level_has_lt _ _ _ HT) as Hh. pose proof (created_len _ _ _ _ HC) as HL.
  pose proof (level_has_type _ _ _ _ _ _ HC HT) as HT'. pose proof (gen_enough h T HT) as HE.
  destruct (gen_keys_ok aes d W alpha beta seed0 seed1 k0 k1 Ha HG) as [K0 K1].
  destruct (share_prefix h T HT) as (b & v & corrs & Hb & Hr & H0 & H1 & HS).
  exists b, v. split; auto. split; auto. intros points HP.
  assert (HP' : Forall (fun x => x < 2 ^ N.of_nat (ld d h)) points).
  { rewrite (created_ld _ _ _ _ _ HC) in HP by auto. auto. }
  destruct points as [|x0 pts].
  - exists [], []. unfold evaluate_at.
    assert (Hh' : (h < nlevels d)%nat) by lia. rewrite !(evaluate_at_checks_ok d W h Hh') by auto. cbn. repeat split; constructor.
  - assert (Hh' : (h < nlevels d)%nat) by lia.
    rewrite !(evaluate_at_eq aes d W h T Hh' HT' HE) by (auto; discriminate). rewrite H0, H1. cbn [bind].
    eexists _, _. split; [reflexivity|]. split; [reflexivity|]. unfold reconstruct. apply Forall3_map.
    intros x Hx. apply HS. rewrite Forall_forall in HP. auto.
Qed.

Lemma history_at : forall ks prev (allowed : N -> Prop),
  match prev with
  | None => True
  | Some q => forall x, allowed x -> x < 2 ^ level_ld ps q
  end ->
  valid_history ps d prev allowed ks ->
  history_reconstructs ps alpha beta prev ks
    (at_results aes d ps k0 prev ks) (at_results aes d ps k1 prev ks).
Proof.
  induction ks as [|k ks IH]; intros prev allowed Hal HV; cbn [at_results history_reconstructs]; auto.
  inversion HV as [|prev' allowed' k' ks' h prefixes Hty Hp Hg Hsz Hfit HV' E1 E2 E3]. subst.
  fold h prefixes in HV', Hp. fold h prefixes. pose proof (level_has_lt _ _ _ Hty) as Hh. fold h in Hh, Hty.
  assert (HR : forall x, In x (outputs ps prev h prefixes) -> x < 2 ^ level_ld ps h).
  { intros x Hx. eapply in_outputs_range; [|exact Hx]. destruct prev as [q|]; auto.
    destruct Hp as (Hq & _ & HF). split; [apply ld_mono; lia|]. eapply Forall_impl; [|exact HF]. auto. }
  split.
  - destruct (point_shares h (call_type k) Hty) as (b & v & Hb & Hr & HX).
    destruct (HX (outputs ps prev h prefixes)) as (r0 & r1 & H0 & H1 & HS).
    { apply Forall_forall. auto. }
    exists r0, r1, b, v. auto.
  - apply (IH (Some h) (fun x => In x (outputs ps prev h prefixes))); auto.
Qed.

End Keys.

(** A created context. *)
Lemma created_context : forall key c, all_typed ps -> create_evaluation_context d key = Ok c ->
  ctx_inv aes d key c /\ pl_ok c /\ c_prev c = prev_z None /\ c_partials c = [].
Proof.
  intros key c HTy Hc. destruct (create_context_inv aes d W key c) as (I & Hp & Hpa); auto.
  { eapply created_params_match; eauto. }
  split; auto. split; [|auto]. unfold pl_ok. congruence.
Qed.

Theorem history_until_at : forall key c ks, all_typed ps -> create_evaluation_context d key = Ok c ->
  valid_history ps d None (fun _ => True) ks ->
  (forall h T, In T (map call_type ks) -> level_has ps h T -> enough_bytes T (16 * blocks d h)) ->
  run_calls aes d c ks = at_results aes d ps key None ks.
Proof.
  intros key c ks HTy Hc HV HE. destruct (created_context key c HTy Hc) as (I & Hpl & Hp & Hpa).
  eapply history_evaluate_at; eauto.
Qed.

(** ** EvaluateAndApply *)

Section Apply.
Variable T : cty.
Variables (keys : list dkey) (points : list N) (rs : nat).
Hypothesis HL : length points = length keys.
Hypothesis HK : Forall (key_ok d) keys.
Hypothesis HP : Forall (fun x => x < 2 ^ 128 /\ x < 2 ^ (N.of_nat rs + last_ld ps)) points.
Hypothesis HN : N.of_nat (length keys) * (last_ld ps + 1) < 2 ^ 31.
Hypothesis HT : forall h, (h < length ps)%nat -> level_has ps h T.
Hypothesis HE : keys <> [] -> forall h, (h < length ps)%nat -> enough_bytes T (16 * blocks d h).

Lemma level_point_eq : forall h x, (h < length ps)%nat ->
  level_point d rs h x = x / 2 ^ (N.of_nat rs + last_ld ps - level_ld ps h).
Proof.
  intros h x Hh. unfold level_point. rewrite N.shiftr_div_pow2.
  rewrite (created_last_ld _ _ _ _ HC), (created_ld _ _ _ _ _ HC) by auto. do 2 f_equal.
  pose proof (created_len _ _ _ _ HC). pose proof (ld_le_last d W h). lia.
Qed.

Lemma level_point_lt : forall h x, (h < length ps)%nat -> In x points ->
  level_point d rs h x < 2 ^ level_ld ps h.
Proof.
  intros h x Hh Hx. rewrite level_point_eq by auto. rewrite Forall_forall in HP. destruct (HP x Hx) as [_ HX].
  assert (level_ld ps h <= last_ld ps). { unfold last_ld. apply ld_mono; lia. }
  apply N.div_lt_upper_bound; [apply N.pow_nonzero; lia|]. rewrite <- N.pow_add_r.
  replace (N.of_nat rs + last_ld ps - level_ld ps h + level_ld ps h) with (N.of_nat rs + last_ld ps) by lia. auto.
Qed.

Lemma apply_int : (Z.of_nat (d_levels d) * Z.of_nat (length keys) < 2 ^ 31)%Z.
Proof.
  rewrite (wf_levels _ W). pose proof (created_len _ _ _ _ HC). pose proof (wf_pos _ W).
  pose proof (h2t_le_ld_last d W (nlevels d - 1) ltac:(lia)).
  rewrite (created_last_ld _ _ _ _ HC) in HN. nia.
Qed.

Lemma apply_points_128 : Forall (fun x => x < P128) points.
Proof. eapply Forall_impl; [|exact HP]. intros x [Hx _]. exact Hx. Qed.

Lemma level_values_at : forall h, (h < length ps)%nat ->
  level_values aes d T keys points rs h
  = mapM (fun kx : dkey * N =>
            r <- evaluate_at aes d T (fst kx) (Z.of_nat h)
                   [snd kx / 2 ^ (N.of_nat rs + last_ld ps - level_ld ps h)] ;;
            Ok (hd (vzero T) r)) (combine keys points).
Proof.
  intros h Hh. unfold level_values. apply mapM_ext. intros [k x] Hin. cbn [fst snd].
  pose proof (in_combine_l _ _ _ _ Hin) as Hk. pose proof (in_combine_r _ _ _ _ Hin) as Hx.
  pose proof (created_len _ _ _ _ HC) as HLn. rewrite <- level_point_eq by auto.
  rewrite (evaluate_at_eq aes d W h T); auto; try lia.
  - destruct (values_to_array T (key_values d k h)); reflexivity.
  - eapply level_has_type; eauto.
  - apply HE; auto. intros HX. rewrite HX in Hk. destruct Hk.
  - rewrite Forall_forall in HK. auto.
  - constructor; auto. rewrite <- (created_ld _ _ _ _ _ HC) by auto. apply level_point_lt; auto.
  - discriminate.
Qed.

Lemma apply_loop_spec : forall S (op : S -> list cval -> S * bool) n h start s, (h + n = length ps)%nat ->
  (start <= h2t d h \/ n = 0)%nat ->
  apply_loop aes d T keys points rs op n h start (nodes_at aes d keys points rs start) s
  = apply_spec aes d ps T keys points rs op n h s.
Proof.
  intros S op. pose proof (created_len _ _ _ _ HC) as HLn.
  induction n as [|n IH]; intros h start s Hn Hst; cbn [apply_loop apply_spec]; auto.
  rewrite (apply_level_eq aes d W T keys points rs HL HK apply_points_128 apply_int h start); try lia; auto.
  2:{ eapply level_has_type; eauto. apply HT. lia. }
  2:{ intros Hne. apply HE; auto. lia. }
  rewrite level_values_at by lia.
  match goal with |- bind (bind ?m _) _ = bind ?m _ => destruct m as [vs| | |]; cbn [bind]; auto end.
  destruct (op s vs) as [s' [|]]; auto. apply IH; [lia|].
  destruct n; [lia|]. left. pose proof (wf_h2t_mono _ W h (Datatypes.S h)). lia.
Qed.

Theorem apply_at : forall S (op : S -> list cval -> S * bool) s,
  evaluate_and_apply aes d T keys points op rs s = apply_spec aes d ps T keys points rs op (length ps) 0 s.
Proof.
  intros S op s. unfold evaluate_and_apply. rewrite HL, Nat.eqb_refl. cbn [check bind].
  rewrite (proj2 (iterM_ok _ _ _)).
  2:{ exact HK. }
  cbn [bind].
  assert (HR : map (fun k => (key_seed k, key_bit k)) keys = nodes_at aes d keys points rs 0).
  { unfold nodes_at. clear - HL. revert points HL. induction keys as [|k ks IH]; intros [|x pts] HL; cbn in *; try lia; auto.
    f_equal. apply IH. lia. }
  rewrite HR. rewrite <- apply_loop_spec with (start := 0%nat); try lia.
  rewrite (created_len _ _ _ _ HC). reflexivity.
Qed.

Lemma apply_spec_run_op : forall S (op : S -> list cval -> S * bool) n h s vss, (h + n = length ps)%nat ->
  mapM (fun h => mapM (fun kx : dkey * N =>
            r <- evaluate_at aes d T (fst kx) (Z.of_nat h)
                   [snd kx / 2 ^ (N.of_nat rs + last_ld ps - level_ld ps h)] ;;
            Ok (hd (vzero T) r)) (combine keys points)) (seq h n) = Ok vss ->
  apply_spec aes d ps T keys points rs op n h s = Ok (run_op op s vss).
Proof.
  intros S op. induction n as [|n IH]; intros h s vss Hn Hm; cbn [apply_spec seq mapM] in *.
  - inv Hm. reflexivity.
  - bind_inv Hm. bind_inv Hm. inv Hm. rewrite Hb. cbn [bind run_op].
    destruct (op s a) as [s' [|]]; auto. apply IH; auto. clear - Hn. lia.
Qed.

End Apply.

End Facts.

(** ** EvaluateUntil after any sequence of calls *)

Section Until.
Variable aes : N -> N -> N.
Variables (F : fops) (ps : list param) (types : list cty) (d : dpf).
Hypothesis HC : created F ps types d.
Hypothesis HTy : all_typed ps.
Let W : wf d := proj1 (created_wf _ _ _ _ HC).

(** A call that returns values has converted a block. *)
Lemma until_ok_enough : forall T h prefixes c r c', cty_ok T = true ->
  evaluate_until aes d T (Z.of_nat h) prefixes c = (Ok r, c') -> enough_bytes T (16 * blocks d h).
Proof.
  intros T h prefixes c r c' Hok H. unfold evaluate_until in H.
  destruct (evaluate_until_checks d T (Z.of_nat h) prefixes c) as [gap| | |]; try discriminate. rewrite Nat2Z.id in H.
  destruct (build_prefix_map d prefixes (Z.to_nat (c_prev c)) []) as [tis pm] eqn:EB.
  destruct (expand_and_update_context aes d h tis c) as [ex c1] eqn:EX. injection H as H _.
  bind_inv H. subst ex. rename a into e. bind_inv H. rename a into corrs. bind_inv H. rename a into bo.
  destruct e as [|n e].
  - exfalso. cbn [length seq combine mapM] in Hb0. injection Hb0 as <-. cbn [concat] in H.
    destruct (Nat.eqb_spec (length prefixes) 0) as [E|E].
    + destruct prefixes; [|discriminate]. cbn [build_prefix_map] in EB. injection EB as <- <-.
      unfold expand_and_update_context in EX. cbn [length Nat.eqb] in EX.
      destruct (at_or_ub (d_h2t d) h) as [stop| | |]; cbn [bind] in EX; try discriminate.
      destruct (subspan _ _ _) as [cws| | |]; cbn [bind] in EX; try discriminate.
      unfold expand_seeds in EX. destruct (_ <=? _); [discriminate|]. destruct (_ <=? _); [discriminate|].
      injection EX as EX _. apply (f_equal (@length _)) in EX. rewrite expand_len in EX. cbn [length] in EX.
      pose proof (Nat.pow_nonzero 2 (length cws)). lia.
    + destruct prefixes as [|p prefixes]; [contradiction|]. cbn [build_prefix_map] in EB.
      assert (HP : pm <> []).
      { destruct (index_of _ _); destruct (build_prefix_map _ _ _ _); injection EB as <- <-; discriminate. }
      bind_inv H. destruct pm as [|m pm]; [contradiction|]. cbn [mapM] in Hb0. bind_inv Hb0. rename Hb1 into HX. unfold copy_range in HX. cbn [length] in HX.
      pose proof (Nat.pow_nonzero 2 gap). destruct (_ || _)%bool eqn:EO; [discriminate|]. lia.
  - cbn [length seq combine mapM fst snd map] in Hb0. bind_inv Hb0. rename Hb1 into HX. bind_inv HX. rename Hb1 into HB.
    rewrite (block_bytes_node aes d h (fst n :: map fst e) 0 (fst n) eq_refl) in HB.
    apply convert_bytes_enough in HB; [|assumption]. rewrite node_bytes_length in HB. exact HB.
Qed.

Theorem until_outputs : forall key c prev stored T h prefixes r c', after aes d ps key c prev stored ->
  cty_ok T = true -> Forall (fun p => p < 2 ^ 128) prefixes ->
  expansion_fits d prev (Z.to_nat h) prefixes ->
  evaluate_until aes d T h prefixes c = (Ok r, c') ->
  (0 <= h)%Z /\ level_has ps (Z.to_nat h) T /\
  match prev with None => prefixes = [] | Some q => (q < Z.to_nat h)%nat /\ prefixes <> [] end /\
  Forall (fun p => match prev with Some q => p < 2 ^ level_ld ps q | None => True end) prefixes /\
  evaluate_at aes d T key h (outputs ps prev (Z.to_nat h) prefixes) = Ok r.
Proof.
  intros key c prev stored T h prefixes r c' HA Hok HP Hfit HU.
  pose proof (created_len _ _ _ _ HC) as HLn.
  destruct (after_inv aes F ps types d HC HTy _ _ _ _ HA) as (I & Hprev & _).
  assert (HCk : exists g, evaluate_until_checks d T h prefixes c = Ok g).
  { unfold evaluate_until in HU. destruct (evaluate_until_checks d T h prefixes c); try discriminate. eauto. }
  destruct HCk as [g HCk]. pose proof HCk as HCk'.
  apply (until_checks_inv d W T h prefixes c g Hok) in HCk'.
  destruct HCk' as (Hh & HT & Hord & Hpr & Hrange & Hg & Hgeq & Hsz & Hval).
  destruct (context_prev d c Hval) as (_ & Hpl & _).
  set (hn := Z.to_nat h) in *. replace h with (Z.of_nat hn) in * by lia.
  assert (Hhn : (hn < length ps)%nat) by lia.
  assert (Hp' : match prev with None => prefixes = [] | Some q => (q < hn)%nat /\ prefixes <> [] end).
  { destruct prev as [q|]; rewrite Hprev in *; cbn [prev_z] in *.
    - split; [lia|]. intros HX. apply Hpr in HX. lia.
    - apply Hpr. lia. }
  assert (Hr' : Forall (fun p => p < 2 ^ N.of_nat (ld d (lvl (c_prev c)))) prefixes).
  { rewrite Forall_forall in *. intros p Hp. apply Hrange; auto.  }
  assert (A : until_args d T hn prefixes c).
  { constructor; auto; try lia.
    assert (Hlen : N.of_nat (length prefixes) < 2 ^ 60).
    { destruct Hfit as [_ Hfit]. match type of Hfit with _ * 2 ^ ?k < _ =>
        pose proof (N.pow_nonzero 2 k ltac:(lia)) end.
      match type of Hfit with _ * ?m < _ => nia end. }
    rewrite <- Hgeq. assert (Hlt : N.of_nat (length prefixes) * 2 ^ N.of_nat g < P128).
    { assert (2 ^ N.of_nat g <= 2 ^ 62) by (apply N.pow_le_mono_r; lia).
      change (2 ^ 60) with 1152921504606846976 in Hlen. change (2 ^ 62) with 4611686018427387904 in H. nia. }
    rewrite N.mod_small in Hsz by exact Hlt. exact Hsz. }
  assert (HM : until_memory d hn prefixes c) by (eapply (fits_memory d); eauto).
  assert (HE : enough_bytes T (16 * blocks d hn)) by (eapply until_ok_enough; eauto).
  rewrite (evaluate_until_eq aes d W key c T hn prefixes I Hpl A HE HM) in HU.
  destruct (until_covered d prefixes c); [|discriminate].
  split; [lia|]. split; [eapply level_type_has; eauto|]. split; [exact Hp'|].
  assert (Hr2 : Forall (fun p => match prev with Some q => p < 2 ^ level_ld ps q | None => True end) prefixes).
  { rewrite Forall_forall in *. intros p Hp. destruct prev as [q|]; auto. specialize (Hr' p Hp).
    rewrite Hprev in Hr'. cbn [prev_z] in Hr'. unfold lvl in Hr'. rewrite Nat2Z.id in Hr'.
    rewrite (created_ld _ _ _ _ _ HC) by lia. auto. }
  split; [exact Hr2|].
  pose proof (outputs_until_points F ps types d HC prev hn prefixes c Hhn Hprev Hp') as HO.
  rewrite (evaluate_at_eq aes d W hn T); auto; try lia.
  - rewrite HO. inv HU. auto.
  - apply (inv_key_ok _ _ _ _ I).
  - apply Forall_forall. intros x Hx. rewrite <- (created_ld _ _ _ _ _ HC) by lia.
    eapply in_outputs_range; [|exact Hx]. destruct prev as [q|]; auto. split; auto.
    apply (ld_mono F ps types d HC); lia.
  - intros HX. apply (f_equal (@length N)) in HX. unfold outputs, extensions in HX. destruct prev as [q|].
    + destruct prefixes as [|p0 pr]; [tauto|]. cbn [flat_map] in HX.
      rewrite app_length, map_length, seq_length in HX. cbn [length] in HX.
      pose proof (N.pow_nonzero 2 (level_ld ps hn - level_ld ps q) ltac:(lia)). lia.
    + rewrite map_length, seq_length in HX. cbn [length] in HX.
      pose proof (N.pow_nonzero 2 (level_ld ps hn) ltac:(lia)). lia.
Qed.

End Until.

(** Positions in the output list. *)
Lemma extensions_length : forall p g, length (extensions p g) = N.to_nat (2 ^ g).
Proof. intros. unfold extensions. rewrite map_length, seq_length. auto. Qed.
Lemma extensions_nth : forall p g j, N.of_nat j < 2 ^ g -> nth_error (extensions p g) j = Some (p * 2 ^ g + N.of_nat j).
Proof.
  intros p g j Hj. unfold extensions. rewrite nth_error_map, nth_error_seq by lia. reflexivity.
Qed.
Lemma flat_extensions_length : forall l g, length (flat_map (fun p => extensions p g) l) = (length l * N.to_nat (2 ^ g))%nat.
Proof. induction l; intros; cbn [flat_map length]; auto. rewrite app_length, extensions_length, IHl. lia. Qed.
Lemma flat_extensions_nth : forall l g i p j, nth_error l i = Some p -> N.of_nat j < 2 ^ g ->
  nth_error (flat_map (fun p => extensions p g) l) (i * N.to_nat (2 ^ g) + j) = Some (p * 2 ^ g + N.of_nat j).
Proof.
  induction l as [|x l IH]; intros g [|i] p j Hi Hj; try discriminate; cbn [flat_map].
  - inv Hi. cbn [Nat.mul Nat.add]. rewrite nth_error_app1 by (rewrite extensions_length; lia).
    apply extensions_nth. auto.
  - rewrite nth_error_app2 by (rewrite extensions_length; lia). rewrite extensions_length.
    replace (S i * N.to_nat (2 ^ g) + j - N.to_nat (2 ^ g))%nat with (i * N.to_nat (2 ^ g) + j)%nat by lia.
    apply IH; auto.
Qed.

(** Small gaps fit into memory. *)
Lemma epb_le_16 : forall T, cty_ok T = true -> (elements_per_block T <= 16)%nat.
Proof.
  intros T Hok. unfold elements_per_block. destruct (is_direct T); [|lia].
  destruct (total_bits T <=? 128); [|lia]. rewrite total_bits_leaf by auto.
  pose proof (leaf_bytes_pos T Hok).
  assert (128 / (8 * N.of_nat (leaf_bytes T)) <= 16); [|lia].
  apply N.div_le_upper_bound; nia.
Qed.

Theorem small_gap_fits : forall F ps types d prev h prefixes, created F ps types d -> all_typed ps ->
  (h < length ps)%nat -> match prev with None => True | Some q => (q < h)%nat end ->
  gap ps prev h <= 26 -> N.of_nat (Nat.max 1 (length prefixes)) * 2 ^ (gap ps prev h + 4) < 2 ^ 60 ->
  expansion_fits d prev h prefixes.
Proof.
  intros F ps types d prev h prefixes HC HTy Hh Hq Hg Hn. pose proof (created_len _ _ _ _ HC) as HL.
  destruct (created_wf _ _ _ _ HC) as (W & _).
  assert (HK : (h2t d h - match prev with None => 0 | Some q => h2t d q end <= N.to_nat (gap ps prev h) + 4)%nat).
  { pose proof (wf_h2t_ld _ W h ltac:(lia)) as Hh1. unfold gap in *. rewrite (created_ld _ _ _ _ _ HC) in * by auto.
    destruct prev as [q|]; [|lia]. rewrite (created_ld _ _ _ _ q HC) in * by lia.
    destruct (HTy q ltac:(lia)) as (T & HT). apply (level_has_type _ _ _ _ _ _ HC) in HT.
    pose proof (wf_epb _ W q T HT) as He. pose proof (epb_le_16 T (proj1 HT)).
    assert (Hb : (block_bits d q <= 4)%nat).
    { destruct (Nat.le_gt_cases (block_bits d q) 4) as [|Hgt]; auto.
      assert (2 ^ 5 <= 2 ^ block_bits d q)%nat by (apply Nat.pow_le_mono_r; lia).
      change (2 ^ 5)%nat with 32%nat in *. lia. }
    unfold block_bits in Hb. lia. }
  unfold expansion_fits. cbv zeta.
  change (nth h (d_h2t d) 0%nat) with (h2t d h).
  replace (match prev with None => 0%nat | Some q => nth q (d_h2t d) 0%nat end)
    with (match prev with None => 0%nat | Some q => h2t d q end) by (destruct prev; reflexivity).
  split; [right; lia|].
  eapply N.le_lt_trans; [|exact Hn]. apply N.mul_le_mono_l. apply N.pow_le_mono_r; lia.
Qed.

(** ** Key generation *)

Section KeyGenArgs.
Variable aes : N -> N -> N.
Variables (F : fops) (ps : list param) (types : list cty) (d : dpf).
Hypothesis HC : created F ps types d.
Hypothesis HReg : registered ps types.
Hypothesis HSh : Forall (roomy ps d) types.
Let W : wf d := proj1 (created_wf _ _ _ _ HC).

Lemma created_types : d_types d = types ++ default_types.
Proof.
  pose proof HC as (d0 & Hc & _ & Hd). rewrite Hd. pose proof (fold_register types d0) as HR. cbv zeta in HR.
  destruct HR as (_ & _ & _ & _ & ->). f_equal. unfold create_incremental in Hc. bind_inv Hc.
  destruct a as [[ps' needed] h2ts]. bind_inv Hc. inv Hc. reflexivity.
Qed.

Lemma created_param : forall h q, nth_error (d_params d) h = Some q -> exists p, nth_error ps h = Some p /\
  p_type q = p_type p.
Proof.
  intros h q Hq. pose proof (created_wf _ _ _ _ HC) as (_ & HL & HN).
  destruct (nth_error ps h) as [p|] eqn:Ep.
  - exists p. split; auto. destruct (HN h p Ep) as (q' & Hq' & _ & Hty). congruence.
  - apply nth_error_None in Ep. assert (h < length (d_params d))%nat by (apply nth_error_Some; congruence). lia.
Qed.

Lemma registered_types : forall h p, nth_error (d_params d) h = Some p -> exists T,
  In T (d_types d) /\ p_type p = to_value_type T /\ enough_bytes T (16 * blocks d h).
Proof.
  intros h q Hq. destruct (created_param h q Hq) as (p & Hp & Hty).
  unfold registered in HReg. rewrite Forall_forall in HReg.
  destruct (HReg p (nth_error_In _ _ Hp)) as (T & HT & Hvt). exists T.
  assert (HIn : In T (d_types d)) by (rewrite created_types; exact HT).
  assert (Hpt : p_type q = to_value_type T) by (rewrite Hty; unfold p_type; rewrite Hvt; reflexivity).
  split; auto. split; auto.
  pose proof (wf_types _ W) as HTy. rewrite Forall_forall in HTy. pose proof (HTy _ HIn) as Hok.
  assert (HLv : level_type d h T).
  { split; auto. exists q. split; auto. rewrite Hpt. apply to_value_type_denotes; auto. }
  apply in_app_or in HT. destruct HT as [HT|HT].
  - rewrite Forall_forall in HSh. apply (roomy_enough ps d); [auto|eapply level_type_has; eauto].
  - eapply shape_enough; eauto. cbn in HT. repeat (destruct HT as [<-|HT]; [reflexivity|]). destruct HT.
Qed.

Lemma registered_all_typed : all_typed ps.
Proof.
  intros h Hh. destruct (nth_error ps h) as [p|] eqn:Ep.
  2:{ apply nth_error_None in Ep. lia. }
  unfold registered in HReg. rewrite Forall_forall in HReg.
  destruct (HReg p (nth_error_In _ _ Ep)) as (T & HT & Hvt). exists T.
  assert (HIn : In T (d_types d)) by (rewrite created_types; exact HT).
  pose proof (wf_types _ W) as HTy. rewrite Forall_forall in HTy. split; auto. exists p. split; auto.
  unfold p_type. rewrite Hvt. apply to_value_type_denotes; auto.
Qed.

Theorem keygen_accepts : forall alpha beta s0 s1, keygen_args ps alpha beta ->
  exists k0 k1, generate_keys aes d alpha beta s0 s1 = Ok (k0, k1).
Proof.
  intros alpha beta s0 s1 [HF Ha]. pose proof (created_len _ _ _ _ HC) as HL.
  assert (Hlen : length ps = length beta) by (eapply Forall2_length; eauto).
  assert (HFn : forall h p b, nth_error ps h = Some p -> nth_error beta h = Some b ->
     exists T v, cty_ok T = true /\ denotes (p_type p) T /\ repr T b v).
  { clear - HF. induction HF as [|? ? ? ? ? ? IHF]; intros [|h] p b Hp Hb; try discriminate; cbn in Hp, Hb.
    - inv Hp. inv Hb. auto.
    - eauto. }
  apply generate_keys_ok; auto.
  - exact registered_types.
  - lia.
  - intros h b T Hb (Hok & q & Hq & HD). destruct (created_param h q Hq) as (p & Hp & Hty).
    destruct (HFn h p b Hp Hb) as (T' & v & Hok' & HD' & Hr).
    assert (T = T') as <- by (eapply denotes_fun; eauto; congruence).
    exists v. apply from_value_complete; auto.
  - assert (HV : forall l bs, (forall h q b, nth_error l h = Some q -> nth_error bs h = Some b ->
                   validate_value (p_type q) b = Ok tt) -> validate_betas l bs = Ok tt).
    { induction l as [|q l IH]; intros [|b bs] HX; cbn [validate_betas]; auto.
      rewrite (HX 0%nat q b) by auto. cbn [bind]. apply IH. intros h q' b' Hq' Hb'. apply (HX (S h)); auto. }
    apply HV. intros h q b Hq Hb. destruct (created_param h q Hq) as (p & Hp & Hty).
    destruct (HFn h p b Hp Hb) as (T' & v & Hok' & HD' & Hr). rewrite Hty.
    rewrite (validate_value_denotes T') by auto. eapply validate_value_repr; eauto.
  - rewrite <- (created_last_ld _ _ _ _ HC). auto.
Qed.

Theorem keygen_rejects : forall alpha beta s0 s1, alpha < P128 -> ~ keygen_args ps alpha beta ->
  generate_keys aes d alpha beta s0 s1 = Err INVALID_ARGUMENT.
Proof.
  intros alpha beta s0 s1 Ha Hn. apply ooi_not_ok.
  - apply generate_keys_ooi; auto. exact registered_types.
  - intros [k0 k1] HG. apply Hn. pose proof (created_len _ _ _ _ HC) as HL.
    destruct (generate_keys_level aes d W _ _ _ _ _ _ Ha HG) as (_ & _ & _ & _ & _ & _ & _ & Hlen & _ & Hal & _).
    split; [|rewrite (created_last_ld _ _ _ _ HC); auto].
    assert (HFn : forall h p b, nth_error ps h = Some p -> nth_error beta h = Some b ->
       exists T v, cty_ok T = true /\ denotes (p_type p) T /\ repr T b v).
    { intros h p b Hp Hb. assert (Hh : (h < length ps)%nat) by (apply nth_error_Some; congruence).
      destruct (registered_all_typed h Hh) as (T & HT).
      destruct (share_prefix aes F ps types d HC alpha beta s0 s1 k0 k1 Ha HG h T HT)
        as (b' & v & corrs & Hb' & Hr & _). destruct HT as (Hok & p' & Hp' & HD).
      exists T, v. rewrite Hp in Hp'. inv Hp'. rewrite Hb in Hb'. inv Hb'. auto. }
    rewrite HL in Hlen. clear - HFn Hlen. revert beta Hlen HFn.
    induction ps as [|p l IH]; intros [|b bs] Hlen HFn; try discriminate; constructor.
    + apply (HFn 0%nat); auto.
    + apply IH; [cbn in Hlen; lia|]. intros h p' b' Hp' Hb'. apply (HFn (S h)); auto.
Qed.

End KeyGenArgs.

(** ** Rejected calls *)

Theorem bad_call_rejected : forall aes F ps types d T h prefixes c, created F ps types d -> cty_ok T = true ->
  bad_call ps (c_prev c) T h prefixes ->
  evaluate_until aes d T h prefixes c = (Err INVALID_ARGUMENT, c).
Proof.
  intros aes F ps types d T h prefixes c HC Hok HB. destruct (created_wf _ _ _ _ HC) as (W & _).
  apply until_rejected; auto. intros g EC. apply (until_checks_inv d W T h prefixes c g Hok) in EC.
  destruct EC as (Hh & HT & Hord & Hpr & Hrange & Hg & Hgeq & Hsz & Hval).
  pose proof (created_len _ _ _ _ HC) as HL. destruct (context_prev d c Hval) as (Hcp & _).
  destruct HB as [HB|HB|HB|H1 H2|H1 H2|p Hp Hr].
  - lia.
  - lia.
  - apply HB. eapply level_type_has; eauto.
  - apply H2, Hpr. auto.
  - apply Hpr in H2. lia.
  - rewrite Forall_forall in Hrange. specialize (Hrange p Hp ltac:(lia)).
    assert ((Z.to_nat (c_prev c) < length ps)%nat) by lia.
    unfold lvl in Hrange. rewrite (created_ld _ _ _ _ _ HC) in Hr by auto. lia.
Qed.

(** ** Stored prefixes *)

Lemma after_le : forall aes F ps types d, created F ps types d -> all_typed ps ->
  forall key c prev stored, after aes d ps key c prev stored ->
  match stored with None => True | Some (q, _) => exists q', prev = Some q' /\ (q <= q')%nat end.
Proof.
  intros aes F ps types d HC HTy key c prev stored HA.
  destruct (created_wf _ _ _ _ HC) as (W & _).
  induction HA as [c Hc|c prev stored h T prefixes r c' HA IH Hok HP HU|c prev stored h T points r c' HA IH HT Hne HU].
  - auto.
  - destruct (after_inv aes F ps types d HC HTy _ _ _ _ HA) as (I & Hprev & _).
    assert (HCk : exists g, evaluate_until_checks d T h prefixes c = Ok g).
    { unfold evaluate_until in HU. destruct (evaluate_until_checks d T h prefixes c); try discriminate. eauto. }
    destruct HCk as [g HCk]. apply (until_checks_inv d W T h prefixes c g Hok) in HCk.
    destruct HCk as (Hh & _ & Hord & _). rewrite Hprev in Hord.
    destruct prev as [q|]; cbn [prev_z] in Hord.
    + destruct (Nat.eqb _ _); auto. exists (Z.to_nat h). split; auto. lia.
    + destruct stored as [[q l]|]; auto. destruct IH as (q' & HX & _). discriminate.
  - exists h. auto.
Qed.

Theorem until_not_extension : forall aes F ps types d, created F ps types d -> all_typed ps ->
  forall key c q' q l h T prefixes p, after aes d ps key c (Some q') (Some (q, l)) ->
  cty_ok T = true -> Forall (fun p => p < 2 ^ 128) prefixes -> In p prefixes ->
  let m := 2 ^ (level_ld ps q - N.of_nat (nth q (d_h2t d) 0%nat)) in
  (forall y, In y l -> y / m <> p / 2 ^ (level_ld ps q' - level_ld ps q) / m) ->
  evaluate_until aes d T h prefixes c = (Err INVALID_ARGUMENT, c).
Proof.
  intros aes F ps types d HC HTy key c q' q l h T prefixes p HA Hok HP Hp m Hne.
  pose proof (after_le _ _ _ _ _ HC HTy _ _ _ _ HA) as HX. cbv beta iota in HX.
  destruct HX as (q'' & HX & Hq). assert (q'' = q') by congruence. subst q''.
  destruct (after_inv aes F ps types d HC HTy _ _ _ _ HA) as (I & Hprev & Hst). cbv beta iota in Hst.
  pose proof (created_len _ _ _ _ HC) as HL. pose proof (inv_prev _ _ _ _ I) as HI. rewrite Hprev in HI. cbn [prev_z] in HI.
  eapply until_not_extends; eauto. intros HIn. apply in_map_iff in HIn. destruct HIn as (y & Hy & Hin).
  apply (Hne y Hin). subst m. unfold domain_to_tree_index in Hy. rewrite !N.shiftr_div_pow2 in Hy.
  rewrite !(created_ld _ _ _ _ _ HC) by lia. unfold block_bits in Hy. unfold h2t in Hy.
  replace (N.of_nat (ld d q') - N.of_nat (ld d q)) with (N.of_nat (ld d q' - ld d q)) by lia.
  replace (N.of_nat (ld d q) - N.of_nat (nth q (d_h2t d) 0%nat)) with (N.of_nat (ld d q - nth q (d_h2t d) 0)%nat) by lia.
  exact Hy.
Qed.

Theorem until_not_extension_unpacked : forall aes F ps types d, created F ps types d -> all_typed ps ->
  forall key c q' q l h T prefixes p Tq, after aes d ps key c (Some q') (Some (q, l)) ->
  cty_ok T = true -> Forall (fun p => p < 2 ^ 128) prefixes -> In p prefixes ->
  level_has ps q Tq -> elements_per_block Tq = 1%nat ->
  ~ extends ps (Some (q, l)) q' p ->
  evaluate_until aes d T h prefixes c = (Err INVALID_ARGUMENT, c).
Proof.
  intros aes F ps types d HC HTy key c q' q l h T prefixes p Tq HA Hok HP Hp HT He Hx.
  eapply until_not_extension; eauto. cbv zeta. intros y Hy HE. apply Hx. cbn [extends]. right.
  destruct (created_wf _ _ _ _ HC) as (W & _). pose proof (level_has_lt _ _ _ HT) as Hq.
  pose proof (wf_epb _ W q Tq (level_has_type _ _ _ _ _ _ HC HT)) as HB. rewrite He in HB.
  assert (block_bits d q = 0%nat).
  { destruct (block_bits d q) as [|b]; auto. pose proof (pow2_nat_pos b). cbn [Nat.pow] in HB. lia. }
  unfold block_bits, h2t in H. assert (HZ : level_ld ps q - N.of_nat (nth q (d_h2t d) 0%nat) = 0).
  { rewrite (created_ld _ _ _ _ q HC) by auto. lia. }
  rewrite HZ in HE.
  change (2 ^ 0) with 1 in HE. rewrite !N.div_1_r in HE. rewrite <- HE. auto.
Qed.
