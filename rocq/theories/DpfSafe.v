(** Arbitrary keys and contexts: no crash and no undefined behaviour. *)
From Coq Require Import List NArith ZArith QArith Lia Bool ZifyBool ZifyNat ZifyN.
From Verif Require Import Base ListUtil ValueTypesModel ValueTypesSpec ValueTypesProofs
  ConvProofs BitsProofs TypeProofs DpfModel DpfTree DpfWf DpfGen DpfEval DpfPoint DpfCtx DpfSpec DpfHist DpfReach.
Import ListNotations.
Ltac Zify.zify_post_hook ::= Z.div_mod_to_equations.
Open Scope N_scope.

Lemma ooi_safe : forall A (r : res A), ok_or_invalid r -> safe r.
Proof. intros A [a|c| |] H; cbn in H; try tauto; split; discriminate. Qed.

Lemma values_to_array_safe : forall T vs, safe (values_to_array T vs).
Proof.
  intros. unfold values_to_array. destruct (negb _); [apply err_safe|]. apply mapM_safe. intros. apply from_value_safe.
Qed.

Section Safe.
Variable aes : N -> N -> N.
Variable d : dpf.
Hypothesis W : wf d.

Lemma value_correction_safe : forall T key h, key_ok d key -> (h < nlevels d)%nat ->
  safe (value_correction d T key h).
Proof.
  clear - W.
  intros T key h Hk Hh. unfold value_correction. destruct (Nat.ltb_spec h (nlevels d - 1)) as [E|]; [|apply values_to_array_safe].
  pose proof (key_ok_len d W key Hk) as HL. rewrite (wf_levels _ W) in HL.
  pose proof (wf_h2t_mono _ W h (nlevels d - 1) E ltac:(lia)).
  unfold at_or_ub. destruct (nth_error (k_cws key) (h2t d h)) eqn:En; [apply values_to_array_safe|].
  apply nth_error_None in En. lia.
Qed.

Lemma value_correction_len : forall T key h corrs, cty_ok T = true ->
  value_correction d T key h = Ok corrs -> length corrs = elements_per_block T.
Proof.
  clear - d.
  intros T key h corrs Hok H. unfold value_correction in H.
  assert (HG : forall vs, values_to_array T vs = Ok corrs -> length corrs = elements_per_block T).
  { intros vs HV. unfold values_to_array in HV. destruct (Nat.eqb_spec (length vs) (elements_per_block T)); cbn in HV; [|discriminate].
    apply mapM_length in HV. lia. }
  destruct (Nat.ltb h (nlevels d - 1)); [bind_inv H|]; eauto.
Qed.

Lemma correct_element_safe : forall T party bit elements corrs j,
  (j < length elements)%nat -> (j < length corrs)%nat ->
  exists v, correct_element T party bit elements corrs j = Ok v.
Proof.
  clear.
  intros T party bit elements corrs j H1 H2. unfold correct_element, at_or_ub.
  apply nth_error_Some in H1. apply nth_error_Some in H2.
  destruct (nth_error elements j); [|congruence]. destruct (nth_error corrs j); [|congruence].
  destruct bit; cbn [bind]; eauto.
Qed.

(** The bytes of one node suffice. *)
Lemma block_convert : forall T h seeds i, level_type d h T -> enough_bytes T (16 * blocks d h) ->
  (i < length seeds)%nat ->
  exists vs, convert_bytes T (block_bytes (blocks d h) (hash_expanded_seeds aes (blocks d h) seeds) i) = Ok vs /\
    length vs = elements_per_block T.
Proof.
  intros T h seeds i HT Hen Hi. destruct (nth_error seeds i) as [s|] eqn:Es.
  2:{ apply nth_error_None in Es. lia. }
  rewrite (block_bytes_node aes d h seeds i s Es).
  destruct (convert_bytes_ok T (node_bytes aes d h s) (proj1 HT)) as (vs & H1 & H2 & _).
  { rewrite node_bytes_length. auto. }
  eauto.
Qed.

Lemma finish_safe : forall T key h points tis st start, (h < nlevels d)%nat -> level_type d h T ->
  enough_bytes T (16 * blocks d h) -> key_ok d key -> (start <= length (k_cws key))%nat ->
  length tis = length points -> length st = length points -> Forall (fun p => p < P128) tis ->
  safe (evaluate_at_finish aes d T key h points tis st start).
Proof.
  intros T key h points tis st start Hh HT Hen Hk Hs HLt HLs HF. unfold evaluate_at_finish.
  unfold at_or_ub at 1. rewrite h2t_nth_error by auto. cbn [bind].
  rewrite subspan_ok by auto. cbn [bind].
  rewrite evaluate_seeds_walk by (auto; lia). cbn [bind].
  set (st' := zip2 _ tis st). assert (HL' : length st' = length points) by (unfold st'; rewrite zip2_length; lia).
  clearbody st'. apply bind_safe; [apply value_correction_safe; auto|]. intros corrs HVc.
  apply value_correction_len in HVc; [|exact (proj1 HT)].
  apply mapM_safe. intros [i [x n]] Hin. cbn [fst snd].
  apply in_combine_l in Hin. apply in_seq in Hin.
  destruct (block_convert T h (map fst st') i HT Hen) as (vs & HC & HLv).
  { rewrite map_length. unfold node in *. lia. }
  rewrite HC. cbn [bind]. rewrite (index_choice aes d W h T) by auto.
  pose proof (block_index_epb aes d W h T Hh HT x) as Hb.
  destruct (correct_element_safe T (k_party key) (snd n) vs corrs (domain_to_block_index d x h)) as (v & Hv); [lia|lia|].
  rewrite Hv. apply ok_safe.
Qed.

(** If the bytes do not suffice, the call fails or aborts, whatever the key. *)
Lemma finish_no_room : forall T key h points tis st start, (h < nlevels d)%nat -> level_type d h T ->
  ~ enough_bytes T (16 * blocks d h) -> key_ok d key -> (start <= length (k_cws key))%nat ->
  length tis = length points -> length st = length points -> Forall (fun p => p < P128) tis -> points <> [] ->
  match evaluate_at_finish aes d T key h points tis st start with Err _ | Crash => True | _ => False end.
Proof.
  intros T key h points tis st start Hh HT Hen Hk Hs HLt HLs HF HN. unfold evaluate_at_finish.
  unfold at_or_ub at 1. rewrite h2t_nth_error by auto. cbn [bind].
  rewrite subspan_ok by auto. cbn [bind].
  rewrite evaluate_seeds_walk by (auto; lia). cbn [bind].
  set (st' := zip2 _ tis st). assert (HL' : length st' = length points) by (unfold st'; rewrite zip2_length; lia).
  clearbody st'. pose proof (value_correction_safe T key h Hk Hh) as HV.
  destruct (value_correction d T key h) as [corrs| | |] eqn:EV; try (destruct HV; congruence); cbn [bind]; auto.
  destruct points as [|x points]; [congruence|]. destruct st' as [|n st']; [discriminate|].
  cbn [length seq combine mapM fst snd map].
  rewrite (block_bytes_node aes d h (fst n :: map fst st') 0 (fst n) eq_refl).
  pose proof (ok_or_crash_convert T (node_bytes aes d h (fst n))) as HC.
  destruct (convert_bytes T (node_bytes aes d h (fst n))) as [vs| | |] eqn:EC; try destruct HC; cbn [bind]; auto.
  exfalso. apply Hen. apply convert_bytes_enough in EC; [|exact (proj1 HT)]. rewrite node_bytes_length in EC. exact EC.
Qed.
Theorem evaluate_at_no_room : forall T key h points, (h < nlevels d)%nat -> level_type d h T ->
  ~ enough_bytes T (16 * blocks d h) -> points <> [] ->
  match evaluate_at aes d T key (Z.of_nat h) points with Err _ | Crash => True | _ => False end.
Proof.
  intros T key h points Hh HT Hen HN. unfold evaluate_at. pose proof (at_checks_ooi d W key (Z.of_nat h) points) as HO.
  destruct (evaluate_at_checks d key (Z.of_nat h) points) as [[]| | |] eqn:EC; cbn in HO; try tauto; cbn [bind]; auto.
  apply (at_checks_inv d W) in EC. destruct EC as (_ & Hk & HF).
  destruct (Nat.eqb_spec (length points) 0) as [E|E]; [destruct points; [congruence|discriminate]|].
  rewrite Nat2Z.id in *. cbv zeta.
  rewrite (evaluate_at_indices_map d W) by auto. apply finish_no_room; auto; rewrite ?map_length; auto; try lia.
  rewrite Forall_map. eapply Forall_impl; [|exact HF]. cbv beta. intros x Hx.
  apply (tree_index_lt d W _ Hh) in Hx. eapply N.lt_le_trans; [exact Hx|]. apply pow_le_P128.
  pose proof (wf_h2t_ld _ W _ Hh). pose proof (ld_le_128 d W h). lia.
Qed.

(** C11: EvaluateAt without a context. *)
Theorem evaluate_at_safe : forall T key h points,
  ((0 <= h < Z.of_nat (nlevels d))%Z -> level_type d (Z.to_nat h) T /\ enough_bytes T (16 * blocks d (Z.to_nat h))) ->
  safe (evaluate_at aes d T key h points).
Proof.
  intros T key h points HT. unfold evaluate_at. apply bind_safe.
  { apply ooi_safe, at_checks_ooi; auto. }
  intros [] HCk. apply (at_checks_inv d W) in HCk. destruct HCk as (Hh & Hk & HF).
  destruct (HT Hh) as [HT' Hen]. destruct (Nat.eqb (length points) 0); [apply ok_safe|].
  assert (Hh' : (Z.to_nat h < nlevels d)%nat) by lia. cbv zeta.
  rewrite (evaluate_at_indices_map d W) by auto. apply finish_safe; auto; rewrite ?map_length; auto; try lia.
  rewrite Forall_map. eapply Forall_impl; [|exact HF]. cbv beta. intros x Hx.
  apply (tree_index_lt d W _ Hh') in Hx. eapply N.lt_le_trans; [exact Hx|]. apply pow_le_P128.
  pose proof (wf_h2t_ld _ W _ Hh'). pose proof (ld_le_128 d W (Z.to_nat h)). lia.
Qed.

(** EvaluateAndApply. *)
Lemma internal_safe : forall n ncw st paths rs cws, (0 < n)%nat -> length paths = length st ->
  length cws = (n * length st)%nat -> Forall (fun p => p < P128) paths ->
  match evaluate_seeds_internal aes n ncw st paths rs cws with
  | Ok st' => length st' = length st
  | Err _ => True
  | _ => False
  end.
Proof.
  clear - aes.
  intros n ncw st paths rs cws Hn HL HLc HF. unfold evaluate_seeds_internal.
  destruct (negb (ncw =? Z.of_nat n)%Z && negb (ncw =? Z.of_nat n * Z.of_nat (length st))%Z) eqn:E; cbn [negb check bind]; auto.
  assert (HCc : concat (chunks batch_size (combine paths st)) = combine paths st)
    by (apply concat_chunks; unfold batch_size; lia).
  rewrite walk_batches_spec; rewrite ?HCc.
  - rewrite imap_length, combine_length. lia.
  - intros level idx Hl Hi. unfold ci. destruct (Z.ltb_spec (Z.of_nat n) ncw) as [E2|E2]; nia.
  - apply Forall_forall. intros [p m] Hin. apply in_combine_l in Hin. rewrite Forall_forall in HF. auto.
  - rewrite combine_length. lia.
Qed.

Lemma rect_length : forall A B (f : nat -> A -> res B) (l : list A) ns rows,
  mapM (fun i => mapM (f i) l) ns = Ok rows -> length (concat rows) = (length ns * length l)%nat.
Proof.
  clear.
  intros A B f l ns rows H. apply mapM_ok_iff in H. induction H as [|i row ns rows H1 H2 IH]; auto.
  cbn [concat length Nat.mul]. rewrite app_length, IH. apply mapM_length in H1. lia.
Qed.

Lemma apply_level_safe : forall T keys points rs h start st, (h < nlevels d)%nat -> level_type d h T ->
  enough_bytes T (16 * blocks d h) -> Forall (key_ok d) keys -> length points = length keys ->
  Forall (fun p => p < P128) points -> length st = length keys -> (start <= h2t d h)%nat ->
  match apply_level aes d T keys points rs h start (h2t d h) st with
  | Ok (_, st') => length st' = length keys
  | Err _ => True
  | _ => False
  end.
Proof.
  intros T keys points rs h start st Hh HT Hen HK HLp HF HLs Hst. unfold apply_level.
  set (n := (h2t d h - start)%nat).
  assert (HX : match (if Nat.ltb 0 n then
           cws <- mapM (fun i => mapM (fun key =>
                                         cw <- at_or_ub (k_cws key) (start + i) ;;
                                         Ok (corr_of cw)) keys) (seq 0 n) ;;
           evaluate_seeds_internal aes n (to_int32 (Z.of_nat n * Z.of_nat (length keys))) st points
             (rs + ld_last d - h2t d h)%nat (concat cws)
         else Ok st) with Ok st' => length st' = length keys | Err _ => True | _ => False end).
  { destruct (Nat.ltb_spec 0 n) as [E|E]; auto.
    assert (HM : safe (mapM (fun i => mapM (fun key =>
                                         cw <- at_or_ub (k_cws key) (start + i) ;;
                                         Ok (corr_of cw)) keys) (seq 0 n))).
    { apply mapM_safe. intros i Hi. apply in_seq in Hi. apply mapM_safe. intros key Hkey.
      rewrite Forall_forall in HK. pose proof (key_ok_h2t d W key h (HK _ Hkey) Hh).
      unfold at_or_ub. destruct (nth_error (k_cws key) (start + i)) eqn:En; [apply ok_safe|].
      apply nth_error_None in En. lia. }
    destruct (mapM _ (seq 0 n)) as [cws| | |] eqn:EM; cbn [bind]; auto; try (destruct HM; congruence).
    pose proof (rect_length _ _ (fun i key => cw <- at_or_ub (k_cws key) (start + i) ;; Ok (corr_of cw)) keys _ _ EM) as HLc.
    rewrite seq_length in HLc. rewrite <- HLs in HLc |- *.
    pose proof (internal_safe n (to_int32 (Z.of_nat n * Z.of_nat (length st))) st points (rs + ld_last d - h2t d h) (concat cws)
       E ltac:(lia) HLc HF) as HI. destruct (evaluate_seeds_internal _ _ _ _ _ _ _); auto. }
  match goal with |- match bind ?m _ with _ => _ end => set (M := m) in * end.
  clearbody M. destruct M as [st'| | |]; cbn [bind]; auto.
  match goal with |- match bind ?m _ with _ => _ end => assert (HS : safe m) end.
  { apply mapM_safe. intros [i [key [x nd]]] Hin.
    pose proof (in_combine_l _ _ _ _ Hin) as Hi. apply in_seq in Hi.
    apply in_combine_r in Hin. apply in_combine_l in Hin. rewrite Forall_forall in HK. specialize (HK _ Hin).
    destruct (block_convert T h (map fst st') i HT Hen) as (vs & HC & HLv).
    { rewrite map_length. unfold node in *. lia. }
    rewrite HC. cbn [bind]. apply bind_safe; [apply value_correction_safe; auto|].
    intros corrs HVc. apply value_correction_len in HVc; [|exact (proj1 HT)].
    match goal with |- safe (correct_element _ _ _ _ _ ?j) => assert (Hj : (j < elements_per_block T)%nat) end.
    { destruct (_ && _); [apply (block_index_epb aes d W h T Hh HT)|]. pose proof (epb_pos T (proj1 HT)). lia. }
    match goal with |- safe (correct_element _ _ _ _ _ ?j) =>
      destruct (correct_element_safe T (k_party key) (snd nd) vs corrs j) as (v & Hv); try lia end.
    rewrite Hv. apply ok_safe. }
  match goal with |- match bind ?m _ with _ => _ end => destruct m as [vs| | |]; cbn [bind]; auto; destruct HS; congruence end.
Qed.

Theorem evaluate_and_apply_safe : forall S T keys points (op : S -> list cval -> S * bool) rs s,
  (forall h, (h < nlevels d)%nat -> level_type d h T /\ enough_bytes T (16 * blocks d h)) ->
  Forall (fun p => p < P128) points ->
  safe (evaluate_and_apply aes d T keys points op rs s).
Proof.
  intros S T keys points op rs s HT HF. unfold evaluate_and_apply.
  apply bind_safe; [apply check_safe|]. intros u HL. apply check_ok, Nat.eqb_eq in HL.
  apply bind_safe.
  { apply iterM_safe. intros. apply ooi_safe, validate_dpf_key_ooi; auto. }
  intros [] HK. apply iterM_ok in HK.
  assert (HG : forall n h start st s, (h + n <= nlevels d)%nat -> (start <= h2t d h \/ n = 0)%nat -> length st = length keys ->
     safe (apply_loop aes d T keys points rs op n h start st s)).
  { induction n as [|n IH]; intros h start st s0 Hn Hs HLs; cbn [apply_loop]; [apply ok_safe|].
    destruct (HT h ltac:(lia)) as [HT' Hen].
    pose proof (apply_level_safe T keys points rs h start st ltac:(lia) HT' Hen HK HL HF HLs ltac:(lia)) as HA.
    destruct (apply_level _ _ _ _ _ _ _ _ _ _) as [[vs st']| | |]; cbn [bind]; try tauto; [|apply err_safe].
    destruct (op s0 vs) as [s' [|]]; [|apply ok_safe]. apply IH; try lia.
    destruct n; [right; auto|left]. pose proof (wf_h2t_mono _ W h (Datatypes.S h) ltac:(lia) ltac:(lia)). lia. }
  apply HG; [lia| |rewrite map_length; auto]. left. lia.
Qed.

(** * Contexts *)

Lemma compute_partial_safe : forall c prefixes h update, (h < nlevels d)%nat ->
  (0 <= c_plevel c < Z.of_nat (nlevels d))%Z -> key_ok d (ctx_key c) ->
  Forall (fun p => p < P128) prefixes ->
  match compute_partial_evaluations aes d prefixes h update c with
  | Ok (st, c') => length st = length prefixes /\ ctx_key c' = ctx_key c /\ c_prev c' = c_prev c
  | Err _ => True
  | _ => False
  end.
Proof.
  intros c prefixes h update Hh Hpl HK HF. unfold compute_partial_evaluations.
  rewrite h2t_at by auto. cbn [bind]. unfold at_or_ub at 1. rewrite h2t_nth_error by auto. cbn [bind].
  pose proof (key_ok_h2t d W _ (lvl (c_plevel c)) HK ltac:(unfold lvl; lia)) as HLk.
  assert (HEnd : forall st start, length st = length prefixes -> (start <= length (k_cws (ctx_key c)))%nat ->
    match (cws <- subspan (k_cws (ctx_key c)) start (h2t d h - start) ;;
           st <- evaluate_seeds aes st prefixes cws ;;
           Ok (st, {| c_params := c_params c; c_key := c_key c; c_prev := c_prev c;
             c_partials := if update
                           then zip2 (fun p (n : node) =>
                                        {| pe_prefix := p; pe_seed := fst n; pe_bit := snd n |})
                                     prefixes st
                           else [];
             c_plevel := Z.of_nat h |})) with
    | Ok (st, c') => length st = length prefixes /\ ctx_key c' = ctx_key c /\ c_prev c' = c_prev c
    | Err _ => True | _ => False end).
  { intros st start HL Hs. rewrite subspan_ok by auto. cbn [bind]. rewrite evaluate_seeds_walk by auto. cbn [bind].
    split; [rewrite zip2_length; lia|]. split; reflexivity. }
  destruct (negb _ && _).
  - destruct (partials_consistent _ _); cbn [check bind]; auto.
    match goal with |- context [mapM ?f prefixes] => assert (HS : safe (mapM f prefixes)) end.
    { apply mapM_safe. intros p _. destruct (lookup_partial _ _); [apply ok_safe|apply err_safe]. }
    destruct (mapM _ prefixes) as [st| | |] eqn:EM; cbn [bind]; auto; try (destruct HS; congruence).
    apply HEnd; auto. apply mapM_length in EM. auto.
  - cbn [bind]. apply HEnd; [rewrite map_length; auto|lia].
Qed.

Theorem evaluate_at_ctx_safe : forall T h points c,
  ((0 <= h < Z.of_nat (nlevels d))%Z -> level_type d (Z.to_nat h) T /\ enough_bytes T (16 * blocks d (Z.to_nat h))) ->
  (0 <= c_plevel c < Z.of_nat (nlevels d))%Z ->
  safe (fst (evaluate_at_ctx aes d T h points c)).
Proof.
  intros T h points c HT Hpl. unfold evaluate_at_ctx.
  pose proof (at_checks_ooi d W (ctx_key c) h points) as HO.
  destruct (evaluate_at_checks d (ctx_key c) h points) as [[]| | |] eqn:EC; cbn in HO; try tauto; [|cbn [fst]; apply err_safe].
  apply (at_checks_inv d W) in EC. destruct EC as (Hh & Hk & HF). destruct (HT Hh) as [HT' Hen].
  destruct (Nat.eqb (length points) 0); [apply ok_safe|].
  assert (Hh' : (Z.to_nat h < nlevels d)%nat) by lia.
  rewrite (evaluate_at_indices_map d W) by auto.
  set (tis := map _ points).
  assert (HFt : Forall (fun p => p < P128) tis).
  { unfold tis. rewrite Forall_map. eapply Forall_impl; [|exact HF]. cbv beta. intros x Hx.
    apply (tree_index_lt d W _ Hh') in Hx. eapply N.lt_le_trans; [exact Hx|]. apply pow_le_P128.
    pose proof (wf_h2t_ld _ W _ Hh'). pose proof (ld_le_128 d W (Z.to_nat h)). lia. }
  pose proof (compute_partial_safe c tis (Z.to_nat h) true Hh' Hpl Hk HFt) as HP.
  destruct (compute_partial_evaluations _ _ _ _ _ _) as [[st c1]| | |]; try tauto; [|cbn [fst]; apply err_safe].
  destruct HP as (HLs & _ & _).
  assert (HS : safe (evaluate_at_finish aes d T (ctx_key c) (Z.to_nat h) points tis st (h2t d (Z.to_nat h)))).
  { apply finish_safe; auto.
    - apply (key_ok_h2t d W); auto.
    - unfold tis. apply map_length.
    - rewrite HLs. unfold tis. apply map_length. }
  destruct (evaluate_at_finish _ _ _ _ _ _ _ _ _); cbn [fst]; exact HS.
Qed.

Lemma expand_len : forall cws st, length (fold_left (fun s cw => expand_level aes cw s) cws st) = (length st * 2 ^ length cws)%nat.
Proof.
  clear - aes.
  induction cws as [|cw cws IH]; intros st; cbn [fold_left length Nat.pow]; [lia|].
  rewrite IH. rewrite expand_level_flat.
  assert (HG : length (flat_map (fun n => [step aes (corr_of cw) false n; step aes (corr_of cw) true n]) st) = (2 * length st)%nat).
  { induction st as [|n st IHs]; auto. cbn [flat_map length app] in *. lia. }
  rewrite HG. lia.
Qed.

Theorem evaluate_until_safe : forall T h prefixes c, cty_ok T = true ->
  ((0 <= h < Z.of_nat (nlevels d))%Z -> level_type d (Z.to_nat h) T -> enough_bytes T (16 * blocks d (Z.to_nat h))) ->
  (prefixes <> [] -> 0 <= c_plevel c /\ (c_partials c = [] -> c_plevel c < Z.of_nat (nlevels d)))%Z ->
  Forall (fun p => p < P128) prefixes ->
  until_memory d (Z.to_nat h) prefixes c ->
  safe (fst (evaluate_until aes d T h prefixes c)).
Proof.
  intros T h prefixes c Hok Hen Hpl HP HM. unfold evaluate_until.
  pose proof (until_checks_ooi d W T h prefixes c) as HO.
  destruct (evaluate_until_checks d T h prefixes c) as [g| | |] eqn:EC; cbn in HO; try tauto; [|cbn [fst]; apply err_safe].
  destruct (until_checks_inv d W _ _ _ _ _ Hok EC) as (Hh & HT & Ho & He & HF & _ & Hg & _ & HV).
  specialize (Hen Hh HT). destruct (context_prev _ _ HV) as (Hpv & Hpo & HK & _).
  set (h' := Z.to_nat h) in *. assert (Hh' : (h' < nlevels d)%nat) by (unfold h'; lia).
  pose proof (wf_h2t_ld _ W h' Hh') as Hhl.
  pose proof (key_ok_h2t d W (ctx_key c) h' HK Hh') as HLk.
  fold (lvl (c_prev c)). set (q := lvl (c_prev c)) in *.
  destruct (build_prefix_map d prefixes q []) as [tis pm] eqn:EB.
  pose proof (tis_count _ _ _ _ _ _ EB) as Htc. cbn [length Nat.add] in Htc.
  destruct (build_prefix_map_spec _ _ _ _ _ _ EB) as ((suf & Hsuf & Hin) & HLpm & HN).
  cbn [app] in Hsuf. subst suf.
  unfold until_memory, prev_tree in HM. fold q in HM. unfold prev_ld in Hg. fold q in Hg.
  set (k := (h2t d h' - (if Nat.eqb (length prefixes) 0 then 0 else h2t d q))%nat) in *.
  assert (HEX : match expand_and_update_context aes d h' tis c with
     | (Ok e, c') => length e = (Nat.max 1 (length tis) * 2 ^ k)%nat /\ ctx_key c' = ctx_key c
     | (Err _, _) => True | _ => False end).
  { unfold expand_and_update_context.
    destruct (Nat.eqb_spec (length tis) 0) as [E2|E2].
    - assert (E : length prefixes = 0%nat).
      { destruct prefixes as [|p0 pr]; auto. pose proof (build_prefix_map_in d _ _ _ _ p0 EB ltac:(left; auto)) as HX.
        destruct tis; [destruct HX|discriminate]. }
      unfold k in *. rewrite E in *. cbn [Nat.eqb Nat.max] in *. rewrite Nat.sub_0_r in *.
      unfold at_or_ub at 1. rewrite h2t_nth_error by auto. cbn [bind].
      rewrite subspan_ok by lia. cbn [bind skipn]. rewrite Nat.sub_0_r.
      assert (HLf : length (firstn (h2t d h') (k_cws (ctx_key c))) = h2t d h') by (rewrite firstn_length; lia).
      rewrite expand_seeds_ok by (rewrite HLf; apply HM).
      rewrite expand_len, HLf, E2. split; [reflexivity|]. unfold ctx_key, with_prev. reflexivity.
    - assert (E : length prefixes <> 0%nat) by lia.
      assert (Hpos : (0 <= c_prev c)%Z).
      { destruct (Z.lt_ge_cases (c_prev c) 0) as [HX|]; auto. apply He in HX. subst prefixes. cbn in E. congruence. }
      assert (Hq : (q < h')%nat) by (unfold q, h', lvl; lia).
      assert (HFt : Forall (fun p => p < P128) tis).
      { apply Forall_forall. intros t Ht. destruct (Hin t Ht) as (p & Hpin & ->).
        rewrite Forall_forall in HF, HP.
        pose proof (tree_index_lt d W q ltac:(lia) p (HF _ Hpin (HP _ Hpin))) as Hx.
        eapply N.lt_le_trans; [exact Hx|]. apply pow_le_P128.
        pose proof (wf_h2t_ld _ W q ltac:(lia)). pose proof (ld_le_128 d W q). lia. }
      fold (lvl (c_prev c)). fold q.
      assert (Hpl' : (0 <= c_plevel c < Z.of_nat (nlevels d))%Z).
      { destruct Hpl as [Hp0 Hp1]; [intros ->; auto|]. split; [exact Hp0|].
        destruct (c_partials c) as [|e l] eqn:EP; [auto|]. unfold pl_ok in Hpo. rewrite EP in Hpo. specialize (Hpo ltac:(discriminate)). lia. }
      pose proof (compute_partial_safe c tis q (Nat.ltb h' (nlevels d - 1)) ltac:(lia) Hpl' HK HFt) as HPs.
      destruct (compute_partial_evaluations aes d tis q _ c) as [[st c1]| | |]; cbn [bind]; auto.
      destruct HPs as (HLs & HCk & HCp). rewrite HCp, h2t_at by (auto; unfold q, h', lvl in *; lia). cbn [bind].
      fold q. unfold at_or_ub at 1. rewrite h2t_nth_error by auto. cbn [bind]. rewrite HCk.
      pose proof (wf_h2t_mono _ W q h' Hq Hh').
      rewrite subspan_ok by lia. cbn [bind].
      unfold k in *. destruct (Nat.eqb_spec (length prefixes) 0) as [|_]; [congruence|].
      set (k' := (h2t d h' - h2t d q)%nat) in *.
      assert (HLf : length (firstn k' (skipn (h2t d q) (k_cws (ctx_key c)))) = k') by (rewrite firstn_length, skipn_length; unfold k'; lia).
      rewrite expand_seeds_ok.
      2:{ rewrite HLf, HLs. eapply N.le_lt_trans; [|apply HM]. apply N.mul_le_mono_r. lia. }
      rewrite expand_len, HLf, HLs. split; [|exact HCk]. f_equal. lia. }
  destruct (expand_and_update_context aes d h' tis c) as [[e| | |] c']; try tauto; cbn [fst bind]; [|apply err_safe].
  destruct HEX as [HLe HCk']. rewrite HCk'.
  apply bind_safe; [apply value_correction_safe; auto|]. intros corrs HVc.
  apply value_correction_len in HVc; [|auto].
  pose proof (wf_epb _ W h' T HT) as Hepb. fold (block_bits d h') in Hepb.
  assert (HB : exists bo, mapM (fun i_st : nat * node =>
           elements <- convert_bytes T (block_bytes (blocks d h') (hash_expanded_seeds aes (blocks d h') (map fst e)) (fst i_st)) ;;
           mapM (correct_element T (k_party (ctx_key c)) (snd (snd i_st)) elements corrs) (seq 0 (2 ^ block_bits d h')))
         (combine (seq 0 (length e)) e) = Ok bo /\ length (concat bo) = (length e * 2 ^ block_bits d h')%nat).
  { assert (HG : forall l, (forall a, In a l -> (fst a < length e)%nat) -> exists bo, mapM (fun i_st : nat * node =>
           elements <- convert_bytes T (block_bytes (blocks d h') (hash_expanded_seeds aes (blocks d h') (map fst e)) (fst i_st)) ;;
           mapM (correct_element T (k_party (ctx_key c)) (snd (snd i_st)) elements corrs) (seq 0 (2 ^ block_bits d h'))) l = Ok bo
         /\ length (concat bo) = (length l * 2 ^ block_bits d h')%nat).
    { induction l as [|a l IH]; intros Ha; [exists []; auto|]. cbn [mapM].
      destruct (block_convert T h' (map fst e) (fst a) HT Hen) as (vs & HCv & HLv).
      { rewrite map_length. apply Ha. left. auto. }
      rewrite HCv. cbn [bind].
      assert (HR : exists row, mapM (correct_element T (k_party (ctx_key c)) (snd (snd a)) vs corrs) (seq 0 (2 ^ block_bits d h')) = Ok row).
      { assert (HG2 : forall js, (forall j, In j js -> (j < elements_per_block T)%nat) ->
           exists row, mapM (correct_element T (k_party (ctx_key c)) (snd (snd a)) vs corrs) js = Ok row).
        { induction js as [|j js IHj]; intros Hj; [exists []; auto|]. cbn [mapM].
          destruct (correct_element_safe T (k_party (ctx_key c)) (snd (snd a)) vs corrs j) as (v & ->).
          - rewrite HLv. apply Hj. left. auto.
          - rewrite HVc. apply Hj. left. auto.
          - cbn [bind]. destruct IHj as (row & ->); [intros; apply Hj; right; auto|]. cbn [bind]. eauto. }
        apply HG2. intros j Hj. apply in_seq in Hj. lia. }
      destruct HR as (row & HR). rewrite HR. cbn [bind].
      destruct IH as (bo & HBo & HLbo); [intros; apply Ha; right; auto|]. rewrite HBo. cbn [bind].
      exists (row :: bo). split; auto. cbn [concat length Nat.mul]. rewrite app_length, HLbo.
      apply mapM_length in HR. rewrite seq_length in HR. lia. }
    destruct (HG (combine (seq 0 (length e)) e)) as (bo & H1 & H2).
    - intros [i n] Hi. apply in_combine_l in Hi. apply in_seq in Hi. cbn. lia.
    - exists bo. split; auto. rewrite combine_length, seq_length in H2. rewrite H2. f_equal. lia. }
  destruct HB as (bo & -> & HLbo). cbn [bind].
  destruct (Nat.eqb_spec (length prefixes) 0) as [E|E]; [apply ok_safe|].
  assert (Hpos : (0 <= c_prev c)%Z).
  { destruct (Z.lt_ge_cases (c_prev c) 0) as [HX|]; auto. apply He in HX. subst prefixes. cbn in E. congruence. }
  assert (Hq : (q < h')%nat) by (unfold q, h', lvl; lia).
  apply bind_safe; [|intros; apply ok_safe]. apply mapM_safe. intros m Hm.
  apply In_nth_error in Hm. destruct Hm as (i & Hi).
  destruct (nth_error prefixes i) as [p|] eqn:Ep.
  2:{ apply nth_error_None in Ep. assert (nth_error pm i <> None) by congruence. apply nth_error_Some in H. lia. }
  destruct (HN _ _ _ Ep Hi) as [H1 H2].
  assert (Hfm : (fst m < length tis)%nat) by (apply nth_error_Some; congruence).
  assert (Hbi : (snd m < 2 ^ block_bits d q)%nat) by (rewrite H2; apply block_index_bound; lia).
  pose proof (wf_h2t_mono _ W q h' Hq Hh') as Hmono. pose proof (wf_ld_mono _ W q h' Hq Hh') as Hlm.
  pose proof (wf_h2t_ld _ W q ltac:(lia)) as Hhlq.
  replace (Nat.max 1 (length tis)) with (length tis) in HLe by lia.
  rewrite HLe. replace (length tis * 2 ^ k / length tis)%nat with (2 ^ k)%nat
      by (rewrite Nat.mul_comm, Nat.div_mul by lia; auto).
  assert (Hk31 : (0 < Z.of_nat (2 ^ k) < 2 ^ 31)%Z).
  { destruct HM as [[HX|HM31] _]; [subst prefixes; cbn in E; congruence|]. split; [pose proof (pow2_nat_pos k); lia|].
    rewrite Nat2Z.inj_pow. change (Z.of_nat 2) with 2%Z. apply Z.pow_lt_mono_r; lia. }
  assert (Hi32 : to_int32 (Z.of_nat (2 ^ k)) = Z.of_nat (2 ^ k)).
  { unfold to_int32. rewrite Z.mod_small by lia. destruct (Z.ltb_spec (Z.of_nat (2 ^ k)) 2147483648); lia. }
  rewrite Hi32. unfold copy_range. rewrite HLbo, HLe.
  set (M := (2 ^ k * 2 ^ block_bits d h')%nat).
  assert (HMeq : M = (2 ^ block_bits d q * 2 ^ g)%nat).
  { unfold M. rewrite <- !Nat.pow_add_r. f_equal. unfold k, block_bits. lia. }
  set (start := (fst m * M + snd m * 2 ^ g)%nat).
  assert (Hst : (Z.of_nat (fst m) * Z.of_nat (2 ^ k) * Z.of_nat (2 ^ block_bits d h')
          + Z.of_nat (snd m) * Z.of_nat (2 ^ g))%Z = Z.of_nat start).
  { unfold start, M. rewrite Nat2Z.inj_add, !Nat2Z.inj_mul. lia. }
  rewrite Hst.
  assert (Hbound : (snd m * 2 ^ g + 2 ^ g <= M)%nat) by (rewrite HMeq; nia).
  assert (Hend : (start + 2 ^ g <= length tis * 2 ^ k * 2 ^ block_bits d h')%nat).
  { replace (length tis * 2 ^ k * 2 ^ block_bits d h')%nat with (length tis * M)%nat by (unfold M; lia). unfold start. nia. }
  match goal with |- safe (if ?b then _ else _) => replace b with false by lia end.
  apply ok_safe.
Qed.

(** A context with another level: no defined result is possible. *)
Lemma compute_partial_ub : forall c prefixes h update,
  (c_plevel c < 0 \/ Z.of_nat (nlevels d) <= c_plevel c)%Z -> compute_partial_evaluations aes d prefixes h update c = UB.
Proof.
  intros c prefixes h update Hpl. unfold compute_partial_evaluations.
  replace (atz_or_ub (d_h2t d) (c_plevel c)) with (@UB nat); [reflexivity|]. unfold atz_or_ub, at_or_ub.
  destruct (Z.ltb_spec (c_plevel c) 0); [reflexivity|]. destruct (nth_error _ _) eqn:E; [|reflexivity].
  exfalso. assert (HX : nth_error (d_h2t d) (Z.to_nat (c_plevel c)) <> None) by congruence. apply nth_error_Some in HX.
  rewrite (wf_len _ W) in HX. lia.
Qed.
Lemma until_bad_level : forall T h prefixes c, cty_ok T = true -> prefixes <> [] ->
  (c_plevel c < 0 \/ Z.of_nat (nlevels d) <= c_plevel c)%Z ->
  fst (evaluate_until aes d T h prefixes c) = Err INVALID_ARGUMENT \/
  fst (evaluate_until aes d T h prefixes c) = UB.
Proof.
  intros T h prefixes c Hok Hne Hpl. unfold evaluate_until.
  pose proof (until_checks_ooi d W T h prefixes c) as HO.
  destruct (evaluate_until_checks d T h prefixes c) as [g|e| |] eqn:EC; cbn in HO; try tauto; [|left; cbn [fst]; congruence].
  right. destruct (build_prefix_map d prefixes _ []) as [tis pm] eqn:EB.
  assert (HL : Nat.eqb (length tis) 0 = false).
  { destruct prefixes as [|p0 pr]; [congruence|]. pose proof (build_prefix_map_in d _ _ _ _ p0 EB ltac:(left; auto)) as HX.
    destruct tis; [destruct HX|reflexivity]. }
  unfold expand_and_update_context. rewrite HL, compute_partial_ub by auto. reflexivity.
Qed.
Lemma at_ctx_bad_level : forall T h points c, points <> [] ->
  (c_plevel c < 0 \/ Z.of_nat (nlevels d) <= c_plevel c)%Z ->
  fst (evaluate_at_ctx aes d T h points c) = Err INVALID_ARGUMENT \/ fst (evaluate_at_ctx aes d T h points c) = UB.
Proof.
  intros T h points c Hne Hpl. unfold evaluate_at_ctx.
  pose proof (at_checks_ooi d W (ctx_key c) h points) as HO.
  destruct (evaluate_at_checks d (ctx_key c) h points) as [g|e| |] eqn:EC; cbn in HO; try tauto; [|left; cbn [fst]; congruence].
  right. destruct points; [congruence|]. cbn [length Nat.eqb]. rewrite compute_partial_ub by auto. reflexivity.
Qed.


End Safe.
