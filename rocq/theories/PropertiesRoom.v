(** C04 for value types for which Create reserves too few bytes: no evaluation function returns a
    value for such a type (C11_without_room says so for EvaluateAt).  See PropertiesDpf.v for the
    vocabulary. *)
From Coq Require Import List NArith ZArith QArith Lia Bool ZifyBool ZifyNat ZifyN.
From Verif Require Import Base ListUtil ValueTypesModel ValueTypesSpec ValueTypesProofs
  ConvProofs BitsProofs TypeProofs DpfModel DpfTree DpfWf DpfGen DpfEval DpfPoint DpfCtx DpfApply
  DpfSpec DpfHist DpfReach DpfSafe DpfCreate DpfFacts DpfExamples PropertiesValueTypes PropertiesDpf PropertiesDpfApi.
Import ListNotations.
Ltac Zify.zify_post_hook ::= Z.div_mod_to_equations.
Open Scope N_scope.

(** No value is returned: the call fails, aborts or has undefined behaviour. *)
Definition no_value {A} (r : res A) : Prop := match r with Ok _ => False | _ => True end.

Lemma no_value_bind : forall A B (r : res A) (f : A -> res B),
  (forall a, r = Ok a -> no_value (f a)) -> no_value (bind r f).
Proof. intros A B [a|e| |] f H; cbn; auto. Qed.

Section NoRoom.
Variable aes : N -> N -> N.
Variable d : dpf.
Hypothesis W : wf d.

(** The first conversion fails. *)
Lemma convert_no_room : forall T h (st : list node), level_type d h T -> ~ enough_bytes T (16 * blocks d h) -> st <> [] ->
  no_value (convert_bytes T (block_bytes (blocks d h) (hash_expanded_seeds aes (blocks d h) (map fst st)) 0)).
Proof.
  intros T h st HT Hen HN. destruct st as [|n st]; [congruence|]. cbn [map].
  rewrite (block_bytes_node aes d h (fst n :: map fst st) 0 (fst n) eq_refl).
  destruct (convert_bytes T _) as [vs| | |] eqn:EC; cbn; auto.
  apply Hen. apply convert_bytes_enough in EC; [|exact (proj1 HT)]. rewrite node_bytes_length in EC. exact EC.
Qed.

Lemma partial_len : forall c prefixes h update st c', (h < nlevels d)%nat -> key_ok d (ctx_key c) ->
  Forall (fun p => p < P128) prefixes ->
  compute_partial_evaluations aes d prefixes h update c = Ok (st, c') -> length st = length prefixes.
Proof.
  intros c prefixes h update st c' Hh HK HF H.
  assert (Hp : (0 <= c_plevel c < Z.of_nat (nlevels d))%Z).
  { unfold compute_partial_evaluations in H. bind_inv H. unfold atz_or_ub in Hb. destruct (Z.ltb_spec (c_plevel c) 0); [discriminate|].
    unfold at_or_ub in Hb. destruct (nth_error (d_h2t d) (Z.to_nat (c_plevel c))) eqn:E; [|discriminate].
    assert (Z.to_nat (c_plevel c) < length (d_h2t d))%nat by (apply nth_error_Some; congruence).
    rewrite (wf_len _ W) in *. lia. }
  pose proof (compute_partial_safe aes d W c prefixes h update Hh Hp HK HF) as HS. rewrite H in HS. apply HS.
Qed.

Lemma until_no_room : forall T h prefixes c, cty_ok T = true -> level_type d (Z.to_nat h) T ->
  ~ enough_bytes T (16 * blocks d (Z.to_nat h)) -> Forall (fun p => p < P128) prefixes ->
  no_value (fst (evaluate_until aes d T h prefixes c)).
Proof.
  intros T h prefixes c Hok HT Hen HP. unfold evaluate_until.
  destruct (evaluate_until_checks d T h prefixes c) as [g| | |] eqn:EC; try exact I.
  destruct (until_checks_inv d W _ _ _ _ _ Hok EC) as (Hh & _ & Ho & He & HF & _ & Hg & _ & HV).
  destruct (context_prev _ _ HV) as (Hpv & Hpo & HK & _).
  set (h' := Z.to_nat h) in *. assert (Hh' : (h' < nlevels d)%nat) by (unfold h'; lia).
  fold (lvl (c_prev c)). set (q := lvl (c_prev c)) in *.
  destruct (build_prefix_map d prefixes q []) as [tis pm] eqn:EB.
  destruct (build_prefix_map_spec _ _ _ _ _ _ EB) as ((suf & Hsuf & Hin) & HLpm & HN).
  cbn [app] in Hsuf. subst suf.
  assert (HEX : match expand_and_update_context aes d h' tis c with (Ok e, _) => e <> [] | _ => True end).
  { unfold expand_and_update_context.
    assert (HX : forall st cws e, st <> [] -> expand_seeds aes st cws = Ok e -> e <> []).
    { intros st cws e Hst H Hnil. subst e. unfold expand_seeds in H. destruct (_ <=? _); [discriminate|].
      destruct (_ <=? _); [discriminate|]. injection H as H. apply (f_equal (@length _)) in H.
      rewrite expand_len in H. cbn [length] in H. destruct st; [congruence|]. cbn [length] in H.
      pose proof (Nat.pow_nonzero 2 (length cws) ltac:(lia)). nia. }
    destruct (Nat.eqb_spec (length tis) 0) as [E2|E2].
    - destruct (bind _ _) as [e| | |] eqn:E; auto. bind_inv E. bind_inv E. eapply HX; [|exact E]. discriminate.
    - assert (HNp : prefixes <> []). { intros ->. cbn in EB. injection EB as <- _. cbn in E2. lia. }
      assert (Hpos : (0 <= c_prev c)%Z).
      { destruct (Z.lt_ge_cases (c_prev c) 0) as [HY|]; auto. apply He in HY. contradiction. }
      assert (Hq : (q < h')%nat) by (unfold q, h', lvl; lia).
      assert (HFt : Forall (fun p => p < P128) tis).
      { apply Forall_forall. intros t Ht. destruct (Hin t Ht) as (p & Hpin & ->).
        rewrite Forall_forall in HF, HP.
        pose proof (tree_index_lt d W q ltac:(lia) p (HF _ Hpin (HP _ Hpin))) as Hx.
        eapply N.lt_le_trans; [exact Hx|]. apply pow_le_P128.
        pose proof (wf_h2t_ld _ W q ltac:(lia)). pose proof (ld_le_128 d W q). lia. }
      fold (lvl (c_prev c)). fold q.
      destruct (compute_partial_evaluations aes d tis q _ c) as [[st c1]| | |] eqn:EP; cbn [bind]; auto.
      apply partial_len in EP; [|lia|exact HK|exact HFt].
      destruct (atz_or_ub _ _); cbn [bind]; auto.
      destruct (bind _ _) as [e| | |] eqn:E; auto. bind_inv E. bind_inv E. eapply HX; [|exact E].
      intros ->. cbn in EP. lia. }
  destruct (expand_and_update_context aes d h' tis c) as [[e| | |] c']; try exact I. cbn [fst bind].
  apply no_value_bind. intros corrs _. apply no_value_bind. intros bo HB. exfalso.
  destruct e as [|n e]; [congruence|]. cbn [length seq combine mapM] in HB. bind_inv HB. bind_inv Hb. cbn [fst] in Hb0.
  pose proof (convert_no_room T h' (n :: e) HT Hen ltac:(discriminate)) as HX. rewrite Hb0 in HX. exact HX.
Qed.

Lemma at_ctx_no_room : forall T h points c, level_type d (Z.to_nat h) T ->
  ~ enough_bytes T (16 * blocks d (Z.to_nat h)) -> points <> [] ->
  no_value (fst (evaluate_at_ctx aes d T h points c)).
Proof.
  intros T h points c HT Hen HN. unfold evaluate_at_ctx.
  destruct (evaluate_at_checks d (ctx_key c) h points) as [[]| | |] eqn:EC; try exact I.
  apply (at_checks_inv d W) in EC. destruct EC as (Hh & Hk & HF).
  destruct (Nat.eqb_spec (length points) 0) as [E|E]; [destruct points; [congruence|discriminate]|].
  assert (Hh' : (Z.to_nat h < nlevels d)%nat) by lia.
  rewrite (evaluate_at_indices_map d W) by auto.
  set (tis := map _ points).
  assert (HFt : Forall (fun p => p < P128) tis).
  { unfold tis. rewrite Forall_map. eapply Forall_impl; [|exact HF]. cbv beta. intros x Hx.
    apply (tree_index_lt d W _ Hh') in Hx. eapply N.lt_le_trans; [exact Hx|]. apply pow_le_P128.
    pose proof (wf_h2t_ld _ W _ Hh'). pose proof (ld_le_128 d W (Z.to_nat h)). lia. }
  destruct (compute_partial_evaluations _ _ _ _ _ _) as [[st c1]| | |] eqn:EP; try exact I.
  apply partial_len in EP; [|lia|exact Hk|exact HFt].
  pose proof (finish_no_room aes d W T (ctx_key c) (Z.to_nat h) points tis st (h2t d (Z.to_nat h)) Hh' HT Hen Hk
    (key_ok_h2t d W _ _ Hk Hh') ltac:(unfold tis; apply map_length) ltac:(rewrite EP; unfold tis; apply map_length) HFt HN) as HS.
  destruct (evaluate_at_finish _ _ _ _ _ _ _ _ _); cbn [fst no_value]; auto.
Qed.

Lemma apply_level_no_room : forall T keys points rs h start st, (h < nlevels d)%nat -> level_type d h T ->
  ~ enough_bytes T (16 * blocks d h) -> keys <> [] -> length points = length keys ->
  Forall (fun p => p < P128) points -> length st = length keys -> (start <= h2t d h)%nat ->
  no_value (apply_level aes d T keys points rs h start (h2t d h) st).
Proof.
  intros T keys points rs h start st Hh HT Hen HN HLp HF HLs Hst. unfold apply_level.
  apply no_value_bind. intros st' Hst'.
  assert (HL' : length st' = length keys).
  { set (n := (h2t d h - start)%nat) in *. destruct (Nat.ltb_spec 0 n) as [E|E]; [|congruence].
    bind_inv Hst'.
    pose proof (rect_length _ _ (fun i key => cw <- at_or_ub (k_cws key) (start + i) ;; Ok (corr_of cw)) keys _ _ Hb) as HLc.
    rewrite seq_length in HLc. rewrite <- HLs in HLc |- *.
    pose proof (internal_safe aes n (to_int32 (Z.of_nat n * Z.of_nat (length keys))) st points (rs + ld_last d - h2t d h) (concat a)
       E ltac:(lia) HLc HF) as HI. rewrite Hst' in HI. exact HI. }
  apply no_value_bind. intros vs HV. exfalso.
  destruct keys as [|k keys]; [congruence|]. destruct points as [|x points]; [discriminate|].
  destruct st' as [|n st']; [discriminate|]. cbn [length seq combine mapM] in HV. bind_inv HV. bind_inv Hb.
  pose proof (convert_no_room T h (n :: st') HT Hen ltac:(discriminate)) as HX. rewrite Hb0 in HX. exact HX.
Qed.

(** [op] is called for the levels before [k] only; [bad] holds of the states in which it stops the evaluation. *)
Lemma apply_stops : forall S T keys points (op : S -> list cval -> S * bool) (bad : S -> Prop) rs s k,
  (forall h, (h < nlevels d)%nat -> level_type d h T) -> (k < nlevels d)%nat ->
  ~ enough_bytes T (16 * blocks d k) -> keys <> [] -> Forall (fun p => p < P128) points ->
  k = 0%nat \/ (forall s vs, snd (op s vs) = false -> bad (fst (op s vs))) ->
  match evaluate_and_apply aes d T keys points op rs s with Ok s' => bad s' | _ => True end.
Proof.
  intros S T keys points op bad rs s k HT Hk Hen HN HF Hop. unfold evaluate_and_apply.
  assert (HBd : forall A (r : res A) (f : A -> res S), (forall a, r = Ok a -> match f a with Ok s' => bad s' | _ => True end) ->
     match bind r f with Ok s' => bad s' | _ => True end).
  { clear. intros A [a|e| |] f H; cbn [bind]; try exact I. apply H. reflexivity. }
  apply HBd. intros u HL. apply check_ok, Nat.eqb_eq in HL.
  apply HBd. intros u' HK. destruct u'. apply iterM_ok in HK.
  assert (HG : forall n h start st s, (h + n <= nlevels d)%nat -> (start <= h2t d h \/ n = 0)%nat -> length st = length keys ->
     (h <= k < h + n)%nat -> match apply_loop aes d T keys points rs op n h start st s with Ok s' => bad s' | _ => True end).
  { induction n as [|n IH]; intros h start st s0 Hn Hs HLs Hkh; [lia|]. cbn [apply_loop].
    apply HBd. intros [vs st'] HA.
    destruct (Nat.eq_dec h k) as [->|E].
    { pose proof (apply_level_no_room T keys points rs k start st Hk (HT k Hk) Hen HN HL HF HLs ltac:(lia)) as HX.
      rewrite HA in HX. destruct HX. }
    destruct Hop as [|Hop]; [lia|]. pose proof (Hop s0 vs) as Hop'. destruct (op s0 vs) as [s' [|]]; cbn [fst snd] in Hop'; [|apply Hop'; reflexivity].
    assert (Hst' : length st' = length keys).
    { clear IH. unfold apply_level in HA. bind_inv HA. bind_inv HA. injection HA as _ <-.
      set (m := (h2t d h - start)%nat) in *. destruct (Nat.ltb_spec 0 m) as [E2|E2]; [|congruence].
      bind_inv Hb.
      pose proof (rect_length _ _ (fun i key => cw <- at_or_ub (k_cws key) (start + i) ;; Ok (corr_of cw)) keys _ _ Hb1) as HLc.
      rewrite seq_length in HLc. rewrite <- HLs in HLc |- *.
      pose proof (internal_safe aes m (to_int32 (Z.of_nat m * Z.of_nat (length keys))) st points (rs + ld_last d - h2t d h) (concat a1)
         E2 ltac:(lia) HLc HF) as HI. rewrite Hb in HI. exact HI. }
    apply IH; try lia.
    destruct n; [right; auto|left]. pose proof (wf_h2t_mono _ W h (Datatypes.S h) ltac:(lia) ltac:(lia)). lia. }
  apply HG; [lia| |rewrite map_length; auto|lia]. left. lia.
Qed.
Lemma apply_no_room : forall S T keys points (op : S -> list cval -> S * bool) rs s k,
  (forall h, (h < nlevels d)%nat -> level_type d h T) -> (k < nlevels d)%nat ->
  ~ enough_bytes T (16 * blocks d k) -> keys <> [] -> Forall (fun p => p < P128) points ->
  k = 0%nat \/ (forall s vs, snd (op s vs) = true) ->
  no_value (evaluate_and_apply aes d T keys points op rs s).
Proof.
  intros S T keys points op rs s k HT Hk Hen HN HF Hop.
  pose proof (apply_stops S T keys points op (fun _ => False) rs s k HT Hk Hen HN HF) as HX.
  assert (HY : k = 0%nat \/ (forall s vs, snd (op s vs) = false -> False)).
  { destruct Hop as [|Hop]; [left; auto|right]. intros s0 vs H. rewrite Hop in H. discriminate. }
  specialize (HX HY). destruct (evaluate_and_apply _ _ _ _ _ _ _ _); [contradiction|exact I..].
Qed.
End NoRoom.

(** ** C04 for all value types *)

(** If a level has fewer bytes than a value of its type consumes, then no function returns a value of
    that level, from any key, context or history.  Together with C06_output_order, which holds for
    all types, the evaluation functions agree for all types. *)
Theorem C04_without_room : forall aes F ps types d T h,
  created F ps types d -> level_has ps h T -> (16 * nth h (d_blocks d) 0 < bytes_consumed T)%nat ->
  (forall key points, points <> [] -> no_value (evaluate_at aes d T key (Z.of_nat h) points)) /\
  (forall c points, points <> [] -> no_value (fst (evaluate_at_ctx aes d T (Z.of_nat h) points c))) /\
  (forall c prefixes, Forall (fun p => p < 2 ^ 128) prefixes ->
     no_value (fst (evaluate_until aes d T (Z.of_nat h) prefixes c))) /\
  (forall S keys points (op : S -> list cval -> S * bool) rs s,
     (forall k, (k < length ps)%nat -> level_has ps k T) -> keys <> [] -> Forall (fun x => x < 2 ^ 128) points ->
     h = 0%nat \/ (forall s vs, snd (op s vs) = true) ->
     no_value (evaluate_and_apply aes d T keys points op rs s)).
Proof.
  intros aes F ps types d T h HC HT HN. destruct (created_wf _ _ _ _ HC) as (W & _). pose proof (created_len _ _ _ _ HC) as HL.
  pose proof (level_has_lt _ _ _ HT) as Hlt. pose proof (level_has_type _ _ _ _ _ _ HC HT) as HT'.
  assert (Hen : ~ enough_bytes T (16 * blocks d h)).
  { intros HE. apply enough_bytes_consumed in HE; [|exact (proj1 HT)]. unfold blocks in HE. lia. }
  split; [|split; [|split]].
  - intros key points Hp. pose proof (C11_without_room aes F ps types d key T h points HC HT HN Hp) as HX.
    destruct (evaluate_at _ _ _ _ _ _); exact HX || exact I.
  - intros c points Hp. apply at_ctx_no_room; rewrite ?Nat2Z.id; auto.
  - intros c prefixes Hp. apply until_no_room; rewrite ?Nat2Z.id; auto. exact (proj1 HT).
  - intros S keys points op rs s HA Hk Hp Hop. apply (apply_no_room aes d W) with (k := h); auto; try lia.
    intros k Hk'. eapply level_has_type; eauto. apply HA. lia.
Qed.
Print Assumptions C04_without_room.
Example C04_without_room_nonvacuous :
  level_has c11_ps 0 c17_bad /\ created ex_F c11_ps [] (ex_create ex_F c11_ps []) /\
  (16 * nth 0 (d_blocks (ex_create ex_F c11_ps [])) 0 < bytes_consumed c17_bad)%nat /\
  match create_evaluation_context (ex_create ex_F c11_ps []) c11_key return Prop with
  | Ok c => fst (evaluate_until ex_aes (ex_create ex_F c11_ps []) c17_bad 0 [] c) = Crash
  | _ => False
  end /\
  evaluate_and_apply ex_aes (ex_create ex_F c11_ps []) c17_bad [c11_key] [5] (fun (n : nat) vs => (S n, true)) 0 0%nat = Crash.
Proof.
  split; [apply C11_roomy_nonvacuous|]. split.
  { exists (ex_create ex_F c11_ps []). split; [vm_compute; reflexivity|]. split; [constructor|reflexivity]. }
  split; [apply C11_roomy_nonvacuous|]. split; vm_compute; reflexivity.
Qed.
