(** Which prefixes and points a call on an evaluation context accepts, and that it evaluates
    them correctly (C05, C13): the context knows the tree nodes of the stored elements, and a
    tree node holds a block of consecutive elements. *)
From Coq Require Import List NArith ZArith QArith Lia Bool ZifyBool ZifyNat ZifyN.
From Verif Require Import Base ListUtil ValueTypesModel ValueTypesSpec ValueTypesProofs
  ConvProofs BitsProofs TypeProofs DpfModel DpfTree DpfWf DpfGen DpfEval DpfPoint DpfCtx DpfApply
  DpfSpec DpfHist DpfReach DpfSafe DpfCreate DpfFacts DpfExamples PropertiesDpf PropertiesDpfApi PropertiesValueTypes PropertiesTypeEq PropertiesDpfTypes.
Import ListNotations.
Ltac Zify.zify_post_hook ::= Z.div_mod_to_equations.
Open Scope N_scope.

(** Specification: the elements of level [h] that lie in the block of a stored element or
    below it.  The elements of level q are in blocks of 2^(log_domain_size - tree level). *)
Definition in_stored_block (ps : list param) (d : dpf) (stored : option (nat * list N)) (h : nat) (x : N) : bool :=
  match stored with
  | None => true
  | Some (q, l) =>
      let m := 2 ^ (level_ld ps q - N.of_nat (nth q (d_h2t d) 0%nat)) in
      Nat.ltb h q || existsb (fun y => y / m =? x / 2 ^ (level_ld ps h - level_ld ps q) / m) l
  end.

Lemma covered_block : forall aes F ps types d, created F ps types d -> all_typed ps ->
  forall key c prev stored, after aes d ps key c prev stored ->
  forall h x, (h < length ps)%nat ->
  covered d c (h2t d h) (domain_to_tree_index d x h) = in_stored_block ps d stored h x.
Proof.
  intros aes F ps types d HC HTy key c prev stored HA h x Hh.
  pose proof (created_len _ _ _ _ HC) as HL. destruct (created_wf _ _ _ _ HC) as (W & _).
  destruct (after_inv aes F ps types d HC HTy _ _ _ _ HA) as (I & Hprev & Hst).
  destruct stored as [[q l]|]; cbn [in_stored_block]; [|unfold covered; rewrite Hst; reflexivity].
  destruct Hst as (Hq & _). destruct (Nat.ltb_spec h q) as [Hlt|Hge]; cbn [orb].
  - eapply (extends_covered aes F ps types d HC HTy); eauto; [lia|]. left. exact Hlt.
  - apply eq_true_iff_eq. rewrite (covered_iff aes F ps types d HC HTy key c prev q l HA) by lia.
    rewrite existsb_exists, in_map_iff. unfold domain_to_tree_index, block_bits, h2t.
    rewrite !(created_ld _ _ _ _ _ HC) by lia.
    replace (N.of_nat (ld d h) - N.of_nat (ld d q)) with (N.of_nat (ld d h - ld d q)) by lia.
    replace (N.of_nat (ld d q) - N.of_nat (nth q (d_h2t d) 0%nat)) with (N.of_nat (ld d q - nth q (d_h2t d) 0)%nat) by lia.
    split; intros (y & H1 & H2); exists y.
    + rewrite !N.shiftr_div_pow2 in H1. split; [exact H2|]. apply N.eqb_eq. exact H1.
    + rewrite !N.shiftr_div_pow2. split; [apply N.eqb_eq in H2; exact H2|exact H1].
Qed.

(** EvaluateAt on a context: the values are those without a context for all points in stored
    blocks, and all other points are rejected. *)
Theorem C05_exact : forall aes F ps types d key c prev stored h T points,
  created F ps types d -> (forall k, (k < length ps)%nat -> exists T, level_has ps k T) ->
  after aes d ps key c prev stored ->
  level_has ps h T -> Forall (fun x => x < 2 ^ level_ld ps h) points ->
  fst (evaluate_at_ctx aes d T (Z.of_nat h) points c)
  = if forallb (in_stored_block ps d stored h) points then evaluate_at aes d T key (Z.of_nat h) points
    else Err INVALID_ARGUMENT.
Proof.
  intros aes F ps types d key c prev stored h T points HC HTy HA HT HF.
  pose proof (level_has_lt _ _ _ HT) as Hh. pose proof (created_len _ _ _ _ HC) as HL.
  destruct (created_wf _ _ _ _ HC) as (W & _).
  destruct points as [|x0 pts].
  { apply (at_ctx_extends aes F ps types d HC HTy key c prev stored h T [] HA HT HF). constructor. }
  destruct (after_inv aes F ps types d HC HTy _ _ _ _ HA) as (I & _ & _).
  rewrite (created_ld _ _ _ _ _ HC Hh) in HF.
  rewrite (evaluate_at_ctx_gen aes d W key); auto; try congruence; try lia.
  2:{ eapply level_has_type; eauto. }
  replace (at_covered d h (x0 :: pts) c) with (forallb (in_stored_block ps d stored h) (x0 :: pts)).
  - destruct (forallb _ _); reflexivity.
  - unfold at_covered. generalize (x0 :: pts). intros l. induction l as [|x l IH]; [reflexivity|].
    cbn [map forallb]. rewrite IH. f_equal. symmetry. eapply covered_block; eauto.
Qed.
Print Assumptions C05_exact.

(** EvaluateUntil with prefixes: the values are those of EvaluateAt at the extensions of the
    prefixes if all prefixes are in stored blocks; otherwise the call is rejected and the context
    stays as it was. *)
Theorem C13_exact : forall aes F ps types d key c q stored h T prefixes,
  created F ps types d -> (forall k, (k < length ps)%nat -> exists T, level_has ps k T) ->
  after aes d ps key c (Some q) stored ->
  level_has ps h T -> roomy ps d T -> (q < h)%nat ->
  prefixes <> [] -> Forall (fun p => p < 2 ^ level_ld ps q) prefixes ->
  gap ps (Some q) h < 63 -> N.of_nat (length prefixes) * 2 ^ gap ps (Some q) h < 2 ^ 63 ->
  expansion_fits d (Some q) h prefixes ->
  if forallb (in_stored_block ps d stored q) prefixes
  then fst (evaluate_until aes d T (Z.of_nat h) prefixes c)
       = evaluate_at aes d T key (Z.of_nat h) (outputs ps (Some q) h prefixes)
  else evaluate_until aes d T (Z.of_nat h) prefixes c = (Err INVALID_ARGUMENT, c).
Proof.
  intros aes F ps types d key c q stored h T prefixes HC HTy HA HT HR Hq Hne HF Hg Hsz Hfit.
  pose proof (level_has_lt _ _ _ HT) as Hh. pose proof (created_len _ _ _ _ HC) as HL.
  destruct (created_wf _ _ _ _ HC) as (W & _).
  destruct (after_inv aes F ps types d HC HTy _ _ _ _ HA) as (I & Hc & Hst).
  pose proof (level_has_type _ _ _ _ _ _ HC HT) as HLT.
  pose proof (roomy_enough ps d h T HR HT) as HE.
  assert (Hlvl : lvl (c_prev c) = q) by (rewrite Hc; cbn [prev_z]; unfold lvl; apply Nat2Z.id).
  rewrite (created_ld _ _ _ _ q HC) in HF by lia.
  assert (Hpq : match Some q with None => prefixes = [] | Some q => (q < h)%nat /\ prefixes <> [] end) by auto.
  assert (A : until_args d T h prefixes c).
  { constructor; auto; try lia.
    - rewrite Hc. cbn [prev_z]. lia.
    - rewrite Hc. cbn [prev_z]. split; intros HX; [congruence|lia].
    - rewrite Hlvl. exact HF.
    - rewrite (gap_prev F ps types d HC (Some q) h prefixes c) in Hg by auto. lia.
    - rewrite (gap_prev F ps types d HC (Some q) h prefixes c) in Hsz by auto. exact Hsz. }
  assert (HM : until_memory d h prefixes c) by (eapply fits_memory; eauto).
  assert (Hpl : pl_ok c).
  { unfold pl_ok. intros Hp. pose proof (after_le _ _ _ _ _ HC HTy _ _ _ _ HA) as HX.
    destruct stored as [[q0 l]|]; [|congruence]. destruct HX as (q' & HX & Hle). inv HX.
    destruct Hst as (_ & Hpl & _). rewrite Hpl, Hc. cbn [prev_z]. lia. }
  pose proof (evaluate_until_eq aes d W key c T h prefixes I Hpl A HE HM) as HU.
  assert (Hcov : until_covered d prefixes c = forallb (in_stored_block ps d stored q) prefixes).
  { unfold until_covered. rewrite Hlvl. clear - HC HTy HA Hq Hh HL.
    induction prefixes as [|x l IH]; [reflexivity|]. cbn [map forallb]. rewrite IH. f_equal.
    eapply covered_block; eauto. lia. }
  rewrite Hcov in HU. rewrite HU. destruct (forallb _ _); [|reflexivity]. cbn [fst].
  rewrite (outputs_until_points F ps types d HC (Some q) h prefixes c) by auto.
  symmetry. apply evaluate_at_eq; auto; try lia.
  - apply (inv_key_ok _ _ _ _ I).
  - apply Forall_forall. intros x Hx. eapply (until_points_in aes F ps types d HC) in Hx; eauto; [tauto|lia| |].
    + intros _. rewrite Hlvl. exact Hq.
    + rewrite Hlvl. exact HF.
  - unfold until_points. destruct (Nat.eqb_spec (length prefixes) 0) as [E|E]; [destruct prefixes; [congruence|discriminate]|].
    destruct prefixes as [|p0 pr]; [congruence|]. cbn [flat_map]. intros HX.
    apply (f_equal (@length N)) in HX. rewrite app_length, range_length in HX. cbn in HX.
    pose proof (pow2_nat_pos (ld d h - ld d (lvl (c_prev c)))). lia.
Qed.
Print Assumptions C13_exact.
(** The elements of level 0 (2 bits, uint8_t) are in one block, so after evaluating the
    extensions of 3 and 2, the prefix 5 of level 1 (below 0) is accepted and evaluated correctly. *)
Example C13_exact_nonvacuous :
  after ex_aes ex_d ex_ps ex4_key ex5_c2 (Some 1%nat) (Some (0%nat, [3; 2])) /\
  forallb (in_stored_block ex_ps ex_d (Some (0%nat, [3; 2])) 1) [5; 60] = true /\
  ~ extends ex_ps (Some (0%nat, [3; 2])) 1 5 /\
  expansion_fits ex_d (Some 1%nat) 2 [5; 60] /\
  is_ok (fst (evaluate_until ex_aes ex_d (TInt 64) 2 [5; 60] ex5_c2)) = true.
Proof.
  split; [exact ex5_after2|]. split; [vm_compute; reflexivity|]. split.
  { vm_compute. intros [H|[H|[H|[]]]]; try discriminate. inversion H. }
  split; [|vm_compute; reflexivity]. split; [|vm_compute; reflexivity]. right. vm_compute. lia.
Qed.

(** ** C53: EvaluateAt with any type, all keys that pass validation *)

(** Specification: the value corrections that [key] stores for level [h]. *)
Definition stored_corrections (ps : list param) (d : dpf) (key : dkey) (h : nat) : list pvalue :=
  if Nat.eqb (S h) (length ps) then k_last key
  else match nth_error (k_cws key) (nth h (d_h2t d) 0%nat) with Some cw => cw_values cw | None => [] end.
(** Specification: they are as many as a block of [T] has elements and are read as values of
    [T] (see C16_from_value_exact for [accepted]). *)
Definition readable (ps : list param) (d : dpf) (T : cty) (key : dkey) (h : nat) : Prop :=
  length (stored_corrections ps d key h) = elements_per_block T /\
  exists vs, Forall2 (accepted T) (stored_corrections ps d key h) vs.
(** Specification: the index of [x] in its block, by the layout of the level. *)
Definition block_position (ps : list param) (d : dpf) (h : nat) (x : N) : N :=
  x mod 2 ^ (level_ld ps h - N.of_nat (nth h (d_h2t d) 0%nat)).

Lemma mapM_ok_or_ub : forall (A : Type) (f : A -> res cval) (P : A -> bool) (Q : cval -> Prop) l,
  (forall a, In a l -> if P a then exists v, f a = Ok v /\ Q v else f a = UB) ->
  match mapM f l with
  | Ok r => forallb P l = true /\ length r = length l /\ Forall Q r
  | UB => exists a, In a l /\ P a = false
  | _ => False
  end.
Proof.
  intros A f P Q l. induction l as [|a l IH]; intros H; cbn [mapM].
  - repeat split. constructor.
  - pose proof (H a (or_introl eq_refl)) as Ha. destruct (P a) eqn:EP.
    + destruct Ha as (v & -> & HQ). cbn [bind]. specialize (IH (fun b Hb => H b (or_intror Hb))).
      destruct (mapM f l) as [r| | |]; cbn [bind]; try contradiction.
      * destruct IH as (H1 & H2 & H3). cbn [forallb length]. rewrite EP, H1, H2. repeat split. constructor; auto.
      * destruct IH as (b & Hb & HP). exists b. split; [right; exact Hb|exact HP].
    + rewrite Ha. cbn [bind]. exists a. split; [left; reflexivity|exact EP].
Qed.

Theorem C53_at_exact : forall aes F ps types d key h T points,
  created F ps types d -> validate_dpf_key d key = Ok tt -> (h < length ps)%nat -> cty_ok T = true ->
  points <> [] -> Forall (fun x => x < 2 ^ level_ld ps h) points ->
  match evaluate_at aes d T key (Z.of_nat h) points with
  | Ok r =>
      readable ps d T key h /\ (bytes_consumed T <= 16 * nth h (d_blocks d) 0)%nat /\
      (elements_per_block T = 1%nat \/ Forall (fun x => block_position ps d h x < N.of_nat (elements_per_block T)) points) /\
      length r = length points /\ Forall (fun v => wt T v = true) r
  | Err e => e = INVALID_ARGUMENT /\ ~ readable ps d T key h
  | Crash => readable ps d T key h /\ (16 * nth h (d_blocks d) 0 < bytes_consumed T)%nat
  | UB => readable ps d T key h /\ (bytes_consumed T <= 16 * nth h (d_blocks d) 0)%nat /\
      (1 < elements_per_block T)%nat /\
      Exists (fun x => N.of_nat (elements_per_block T) <= block_position ps d h x) points
  end.
Proof.
  intros aes F ps types d key h T points HC HK Hh HT Hne HF.
  pose proof (created_wf _ _ _ _ HC) as (W & _). pose proof (created_len _ _ _ _ HC) as HL.
  assert (Hh' : (h < nlevels d)%nat) by lia.
  rewrite (created_ld _ _ _ _ _ HC Hh) in HF.
  unfold evaluate_at. rewrite (evaluate_at_checks_ok d W h Hh' key points HK HF). cbn [bind].
  destruct (Nat.eqb_spec (length points) 0) as [E|_]; [destruct points; [congruence|discriminate]|].
  rewrite Nat2Z.id. unfold evaluate_at_finish. unfold at_or_ub at 1. rewrite h2t_nth_error by auto. cbn [bind].
  pose proof (key_ok_h2t d W key h HK Hh') as Hlen.
  rewrite subspan_ok by lia. cbn [bind].
  assert (HP : Forall (fun x => x < P128) points).
  { eapply Forall_impl; [|exact HF]. cbv beta. intros x Hx. eapply N.lt_le_trans; [exact Hx|].
    apply pow_le_P128. pose proof (ld_le_128 d W h). lia. }
  rewrite evaluate_seeds_walk.
  2:{ unfold evaluate_at_indices. destruct (Nat.ltb _ _); rewrite ?map_length; auto. }
  2:{ unfold evaluate_at_indices. destruct (Nat.ltb _ _); auto. rewrite Forall_map. eapply Forall_impl; [|exact HP]. cbv beta. intros x Hx.
      unfold domain_to_tree_index. rewrite N.shiftr_div_pow2.
      eapply N.le_lt_trans; [|exact Hx]. apply N.div_le_upper_bound; [apply N.pow_nonzero; lia|].
      pose proof (pow2_pos (N.of_nat (block_bits d h))). nia. }
  cbn [bind]. set (st := zip2 _ _ _).
  assert (HLs : length st = length points).
  { assert (HLi : length (evaluate_at_indices d T h points) = length points) by (unfold evaluate_at_indices; destruct (Nat.ltb _ _); rewrite ?map_length; reflexivity).
    unfold st. rewrite zip2_length; rewrite ?map_length; congruence. }
  clearbody st. rewrite value_correction_values by (auto using key_ok_len).
  assert (EK : key_values d key h = stored_corrections ps d key h).
  { unfold key_values, stored_corrections. rewrite HL. destruct (Nat.ltb_spec h (length ps - 1)), (Nat.eqb_spec (S h) (length ps)); try lia; reflexivity. }
  rewrite EK. set (protos := stored_corrections ps d key h) in *. clear EK.
  assert (HV : match values_to_array T protos with
               | Ok corrs => readable ps d T key h /\ length corrs = elements_per_block T /\ Forall (fun v => wt T v = true) corrs
               | Err e => e = INVALID_ARGUMENT /\ ~ readable ps d T key h
               | _ => False end).
  { unfold values_to_array. destruct (Nat.eqb_spec (length protos) (elements_per_block T)) as [El|El]; cbn [negb].
    2:{ split; [reflexivity|]. intros [H _]. exact (El H). }
    unfold readable. fold protos.
    assert (HX : match mapM (from_value T) protos with
       | Ok corrs => Forall2 (accepted T) protos corrs /\ Forall (fun v => wt T v = true) corrs
       | Err e => e = INVALID_ARGUMENT /\ ~ exists vs, Forall2 (accepted T) protos vs | _ => False end).
    { clear El. induction protos as [|p l IH]; cbn [mapM]; [split; constructor|].
      destruct (C16_from_value_exact T p HT) as [H1 H2]. pose proof (from_value_safe T p) as [Hs1 Hs2].
      destruct (from_value T p) as [v|e| |] eqn:Ev; cbn [bind]; try congruence.
      - destruct (mapM (from_value T) l) as [vs|e| |]; cbn [bind]; try contradiction.
        + destruct IH as [IH1 IH2]. split; constructor; auto; [apply H1; reflexivity|]. eapply from_value_wt; eauto.
        + destruct IH as [-> IH2]. split; [reflexivity|]. intros (ws & Hw). inv Hw. apply IH2. eauto.
      - split; [exact (from_value_err T p e Ev)|]. intros (ws & Hw). inversion Hw as [|? w ? ws' Hw1 Hw2]; subst. apply H1 in Hw1. discriminate. }
    destruct (mapM (from_value T) protos) as [corrs|e| |] eqn:Em; try contradiction.
    - destruct HX as [HX1 HX2]. split; [split; [exact El|eauto]|]. split; [|exact HX2]. apply mapM_length in Em. lia.
    - destruct HX as [-> HX]. split; [reflexivity|]. intros [_ H]. exact (HX H). }
  destruct (values_to_array T protos) as [corrs|e| |]; cbn [bind]; try contradiction; [|exact HV].
  destruct HV as (HRd & Hcl & Hcw). clear protos.
  change (blocks d h) with (nth h (d_blocks d) 0%nat) in *.
  assert (Hnode : forall i x n, In (i, (x, n)) (combine (seq 0 (length points)) (combine points st)) ->
     In x points /\ block_bytes (nth h (d_blocks d) 0%nat) (hash_expanded_seeds aes (nth h (d_blocks d) 0%nat) (map fst st)) i = node_bytes aes d h (fst n)).
  { intros i x n Hin. split; [apply in_combine_r in Hin; apply in_combine_l in Hin; exact Hin|].
    apply (block_bytes_node aes d h). clear - Hin HLs.
    assert (HX : forall s, In (i, (x, n)) (combine (seq s (length points)) (combine points st)) -> (s <= i)%nat /\ nth_error st (i - s) = Some n).
    { clear Hin. revert st HLs. induction points as [|y l IH]; intros [|m st] HLs s Hin; try discriminate; [destruct Hin|].
      cbn [length seq combine] in Hin. destruct Hin as [Hin|Hin].
      - inv Hin. split; [lia|]. rewrite Nat.sub_diag. reflexivity.
      - apply IH in Hin; [|cbn in HLs; lia]. destruct Hin as [Hle Hn]. split; [lia|]. replace (i - s)%nat with (S (i - S s)) by lia. exact Hn. }
    specialize (HX 0%nat Hin). destruct HX as [_ HX]. rewrite Nat.sub_0_r in HX. apply (map_nth_error fst). exact HX. }
  assert (HNE : combine (seq 0 (length points)) (combine points st) <> []).
  { destruct points, st; try discriminate; congruence. }
  assert (HIn : forall x, In x points -> exists i n, In (i, (x, n)) (combine (seq 0 (length points)) (combine points st))).
  { intros x Hx. clear - Hx HLs. generalize 0%nat as s. revert st HLs Hx. induction points as [|y l IH]; intros [|m st] HLs Hx s; try discriminate; [destruct Hx|].
    cbn [length seq combine]. destruct Hx as [->|Hx]; [exists s, m; left; reflexivity|].
    destruct (IH st ltac:(cbn in HLs; lia) Hx (S s)) as (i & n & Hi). exists i, n. right. exact Hi. }
  assert (HLL : length (combine (seq 0 (length points)) (combine points st)) = length points).
  { rewrite !combine_length, seq_length. lia. }
  set (L := combine (seq 0 (length points)) (combine points st)) in *. clearbody L.
  destruct (Nat.le_gt_cases (bytes_consumed T) (16 * nth h (d_blocks d) 0)%nat) as [HB|HB].
  2:{ (* not enough bytes *)
      destruct L as [|[i [x n]] L]; [congruence|]. cbn [mapM fst snd]. rewrite (proj2 (Hnode i x n (or_introl eq_refl))).
      pose proof (C17_consumption T (node_bytes aes d h (fst n)) HT) as HCv. rewrite node_bytes_length in HCv.
      change (blocks d h) with (nth h (d_blocks d) 0%nat) in HCv.
      destruct (convert_bytes T (node_bytes aes d h (fst n))); cbn [bind]; try contradiction; [lia|]. split; auto. }
  set (idx := fun x : N => if Nat.ltb 1 (elements_per_block T) then domain_to_block_index d x h else 0%nat).
  assert (Hidx : forall x, idx x = if Nat.ltb 1 (elements_per_block T) then N.to_nat (block_position ps d h x) else 0%nat).
  { intros x. unfold idx. destruct (Nat.ltb _ _); [|reflexivity]. unfold domain_to_block_index, block_position, block_bits, h2t.
    rewrite (created_ld _ _ _ _ _ HC Hh).
    replace (N.of_nat (ld d h) - N.of_nat (nth h (d_h2t d) 0%nat)) with (N.of_nat (ld d h - nth h (d_h2t d) 0)%nat) by lia. rewrite N.land_ones. reflexivity. }
  pose proof (epb_pos T HT) as Hpos.
  match goal with |- match mapM ?f _ with _ => _ end =>
    pose proof (mapM_ok_or_ub _ f (fun ix : nat * (N * node) => Nat.ltb (idx (fst (snd ix))) (elements_per_block T))
      (fun v => wt T v = true) L) as HM end.
  match type of HM with ?P -> _ => assert (HPre : P) end.
  { intros [i [x n]] Hin. cbn [fst snd]. rewrite (proj2 (Hnode i x n Hin)).
    pose proof (C17_consumption T (node_bytes aes d h (fst n)) HT) as HCv. rewrite node_bytes_length in HCv.
    change (blocks d h) with (nth h (d_blocks d) 0%nat) in HCv.
    destruct (convert_bytes T (node_bytes aes d h (fst n))) as [vs| | |]; cbn [bind]; try contradiction; [|lia].
    destruct HCv as (_ & Hvl & Hvw). fold (idx x). unfold correct_element, at_or_ub.
    destruct (Nat.ltb_spec (idx x) (elements_per_block T)) as [Hi|Hi].
    - destruct (nth_error vs (idx x)) as [e|] eqn:Ee; [|apply nth_error_None in Ee; lia].
      destruct (nth_error corrs (idx x)) as [cr|] eqn:Ec; [|apply nth_error_None in Ec; lia].
      assert (We : wt T e = true) by (rewrite Forall_forall in Hvw; apply Hvw; eapply nth_error_In; eauto).
      assert (Wc : wt T cr = true) by (rewrite Forall_forall in Hcw; apply Hcw; eapply nth_error_In; eauto).
      cbn [bind]. destruct (snd n); cbn [bind]; (eexists; split; [reflexivity|]); destruct (_ =? 1)%Z; auto using vadd_wt, vneg_wt.
    - assert (nth_error vs (idx x) = None) as -> by (apply nth_error_None; lia). reflexivity. }
  specialize (HM HPre). clear HPre.
  match goal with |- match mapM ?f _ with _ => _ end => destruct (mapM f L) as [r| | |]; try contradiction end.
  - destruct HM as (HA & HLr & HW). split; [exact HRd|]. split; [exact HB|]. split; [|split; [congruence|exact HW]].
    destruct (Nat.eq_dec (elements_per_block T) 1) as [E1|E1]; [left; exact E1|right].
    apply Forall_forall. intros x Hx. destruct (HIn x Hx) as (i & n & Hi). rewrite forallb_forall in HA. specialize (HA _ Hi). cbn [fst snd] in HA.
    rewrite Hidx in HA. destruct (Nat.ltb_spec 1 (elements_per_block T)); [|lia]. apply Nat.ltb_lt in HA. lia.
  - destruct HM as ([i [x n]] & Hin & HPx). cbn [fst snd] in HPx. rewrite Hidx in HPx. apply Nat.ltb_ge in HPx.
    destruct (Nat.ltb_spec 1 (elements_per_block T)) as [E1|E1]; [|lia].
    split; [exact HRd|]. split; [exact HB|]. split; [exact E1|]. apply Exists_exists. exists x. split; [apply (Hnode i x n Hin)|]. lia.
Qed.
Print Assumptions C53_at_exact.
(** All four outcomes occur: two keys that pass validation, each with in-range points. *)
Example C53_at_exact_nonvacuous :
  created ex_F ex_ps ex_types ex_d /\ validate_dpf_key ex_d xy_key = Ok tt /\ cty_ok (TInt 64) = true /\
  Forall (fun x => x < 2 ^ level_ld ex_ps 0) [0; 1; 3] /\
  is_ok (evaluate_at ex_aes ex_d (TInt 64) xy_key 0 [0; 1]) = true /\
  evaluate_at ex_aes ex_d (TInt 64) xy_key 0 [0; 1; 3] = UB /\
  evaluate_at ex_aes ex_d (TInt 8) xy_key 0 [0; 1; 3] = Err INVALID_ARGUMENT /\
  validate_dpf_key xy_d (fst xy_keys) = Ok tt /\
  evaluate_at ex_aes xy_d (TTup [TInt 128; TInt 128]) (fst xy_keys) 0 [6] = Crash.
Proof.
  split; [exact ex_created|]. split; [vm_compute; reflexivity|]. split; [reflexivity|].
  split; [repeat constructor|]. repeat split; vm_compute; reflexivity.
Qed.
