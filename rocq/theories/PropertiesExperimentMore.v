(** C62 and C64: rejected inputs, and runs without an input file. *)
From Coq Require Import List NArith ZArith QArith Qround Lia Lqa Bool ZifyBool ZifyNat ZifyN Sorted.
From Verif Require Import Base ListUtil ValueTypesModel ValueTypesSpec TypeProofs DpfModel DpfWf DpfSpec DpfHist DpfReach DpfFacts DpfCreate
  DpfExamples PropertiesDpf PropertiesDpfApi PropertiesDpfTree ExperimentModel ExperimentProofs PropertiesExperiment.
Import ListNotations.
Open Scope N_scope.
Ltac Zify.zify_post_hook ::= Z.div_mod_to_equations.

(** ** C62: everything else is rejected with a message *)
Theorem C62_rejected_partial : forall f lines reader_ok, (fl_ld f < 2 ^ 31 - 1)%Z ->
  (exists prefixes, main_prefixes f lines reader_ok = Ok prefixes) \/ main_prefixes f lines reader_ok = Err INVALID_ARGUMENT.
Proof.
  intros f lines ok Hld. unfold main_prefixes.
  assert (HV : validate_flags f = Ok tt \/ validate_flags f = Err INVALID_ARGUMENT).
  { unfold validate_flags. destruct (0 <=? fl_ld f)%Z; cbn [check bind]; auto. destruct (0 <? fl_iterations f)%Z; cbn [check bind]; auto.
    destruct (implb _ _); cbn [check bind]; auto. destruct (2 <=? fl_factor f)%Z; cbn [check bind]; auto.
    induction (fl_levels f) as [|[l|] ls IH]; cbn [iterM bind]; auto. destruct (_ && _); cbn [check bind]; auto. }
  destruct HV as [->| ->]; cbn [bind]; auto. destruct (fl_input f); [|eauto].
  assert (HR : (exists s, read_unique_values lines ok = Ok s) \/ read_unique_values lines ok = Err INVALID_ARGUMENT).
  { unfold read_unique_values. generalize (@nil N). induction lines as [|line lines IH]; intros s; cbn [foldM bind].
    - destruct ok; cbn [check bind]; eauto.
    - destruct line as [|[x|] rest]; cbn [bind]; auto. }
  destruct HR as [(s & ->)| ->]; cbn [bind]; auto. unfold compute_prefixes. destruct (Z.eqb_spec (fl_ld f) (2 ^ 31 - 1)); [lia|]. eauto.
Qed.
Print Assumptions C62_rejected_partial.
(** With log_domain_size 2^31 - 1, which the flags allow, the number of prefix lengths overflows an int. *)
Theorem C62_refuted : exists f lines, validate_flags f = Ok tt /\ Forall (fun line => exists x rest, line = Some x :: rest) lines /\
  main_prefixes f lines true = UB.
Proof.
  exists {| fl_input := true; fl_ld := 2147483647; fl_iterations := 20; fl_factor := 2; fl_only_nonzeros := false; fl_levels := [] |}, [[Some 7]].
  split; [reflexivity|]. split; [repeat constructor; eauto|]. vm_compute. reflexivity.
Qed.
Print Assumptions C62_refuted.

(** ** C64 without an input: one level is expanded completely *)

(** The level that main evaluates without an input: log_domain_size, or the one of the flag. *)
Definition only_level (f : flags) (l : Z) : Prop := fl_levels f = [] /\ l = fl_ld f \/ fl_levels f = [Some l].
(** Without an input, the program computes shares of 1 at alpha and of 0 elsewhere for the whole
    domain of the only level, if alpha is in it; otherwise it aborts.  Alpha is drawn from the domain
    given by log_domain_size, even if the flag gives a smaller level. *)
Theorem C64_one_level : forall rnd log2 fuel aes F f l rand seed0 seed1 lines ok,
  validate_flags f = Ok tt -> fl_input f = false -> only_level f l -> (fl_ld f <= 128)%Z -> rand < 2 ^ 128 ->
  (alpha_of f rand < 2 ^ Z.to_N l -> (l < 60)%Z ->
   exists o0 o1,
     experiment_main rnd log2 fuel aes F f lines ok rand seed0 seed1 false = Some (Ok [o0]) /\
     experiment_main rnd log2 fuel aes F f lines ok rand seed0 seed1 true = Some (Ok [o1]) /\
     reconstruct (TInt 32) (alpha_of f rand) (VNum 1) (map N.of_nat (seq 0 (N.to_nat (2 ^ Z.to_N l)))) o0 o1) /\
  (2 ^ Z.to_N l <= alpha_of f rand -> forall party,
   experiment_main rnd log2 fuel aes F f lines ok rand seed0 seed1 party = Some Crash).
Proof.
  intros rnd log2 fuel aes F f l rand seed0 seed1 lines ok HV Hin HO Hld Hrand.
  assert (Hpos : (0 <= fl_ld f)%Z) by (apply validate_ld; auto).
  assert (Hl : (0 <= l <= fl_ld f)%Z).
  { destruct HO as [[_ ->]|HO]; [lia|]. unfold validate_flags in HV. bind_inv HV. bind_inv HV. bind_inv HV. bind_inv HV. rewrite HO in HV.
    cbn [iterM] in HV. bind_inv HV. apply check_ok in Hb3. lia. }
  assert (Hon : fl_only_nonzeros f = false).
  { unfold validate_flags in HV. bind_inv HV. bind_inv HV. bind_inv HV. apply check_ok in Hb1. rewrite Hin in Hb1. destruct (fl_only_nonzeros f); [discriminate|reflexivity]. }
  assert (EL : main_levels rnd log2 fuel f [[]] = Some (Ok [l])).
  { unfold main_levels. destruct HO as [[-> ->]| ->]; [|reflexivity]. rewrite Hon. reflexivity. }
  assert (EP : main_prefixes f lines ok = Ok [[]]) by (unfold main_prefixes; rewrite HV, Hin; reflexivity).
  unfold experiment_main. rewrite EP, EL. clear EP EL.
  set (ps := experiment_params [l]). set (alpha := alpha_of f rand).
  assert (Ea : (if (fl_ld f <? 128)%Z then rand mod 2 ^ Z.to_N (fl_ld f) else rand) = alpha).
  { unfold alpha, alpha_of. destruct (fl_ld f <? 128)%Z eqn:E; [reflexivity|].
    replace (fl_ld f) with 128%Z by lia. symmetry. apply N.mod_small. exact Hrand. }
  assert (Ha' : alpha < 2 ^ 128).
  { unfold alpha, alpha_of. eapply N.lt_le_trans; [apply N.mod_lt, N.pow_nonzero; discriminate|]. apply N.pow_le_mono_r; lia. }
  assert (HC : exists d0, create_incremental F ps = Ok d0).
  { apply create_accepts.
    - split.
      + discriminate.
      + repeat constructor; cbn [p_ld]; lia.
      + intros [|i] [|j] p q Hij Hp Hq; try lia; cbn in Hq; destruct j; discriminate.
      + repeat constructor. exists (PTInteger 32). split; [reflexivity|]. constructor. exists 5%Z. split; [lia|reflexivity].
      + repeat constructor; cbn; discriminate.
    - repeat constructor. exists (TInt 32). split; [reflexivity|]. split; [apply (denotes_int 32)|]. left. reflexivity. }
  destruct HC as (d0 & Hd). set (d := register_value_type (TInt 128) d0).
  assert (HC : created F ps [TInt 128] d).
  { exists d0. split; [exact Hd|]. split; [repeat constructor|reflexivity]. }
  assert (HT : level_has ps 0 (TInt 32)).
  { split; [reflexivity|]. eexists. split; [reflexivity|]. apply (denotes_int 32). }
  assert (HReg : registered ps [TInt 128]) by (repeat constructor; exists (TInt 32); split; [cbn; tauto|reflexivity]).
  assert (HRo : Forall (roomy ps d) [TInt 128]) by (repeat constructor; eapply DpfFacts.shape_roomy; [exact HC|reflexivity]).
  set (beta := [to_value (TInt 128) (VNum 1)]).
  assert (HM : forall party, main_run aes F f [[]] [l] rand seed0 seed1 party =
    bind (value_or_abort (generate_keys aes d alpha beta seed0 seed1)) (fun k => run_hierarchical aes d (if party then snd k else fst k) [[]])).
  { intros party. unfold main_run. cbn [prefixes_to_evaluate removelast mapM bind]. fold ps. rewrite Hd.
    cbn [value_or_abort bind]. rewrite Ea. cbv zeta. fold d. change (map (fun _ : Z => to_value (TInt 128) (VNum 1)) [l]) with beta.
    destruct (generate_keys aes d alpha beta seed0 seed1) as [[k0 k1]|c| |]; cbn [value_or_abort bind]; auto. rewrite Hon. reflexivity. }
  split.
  - intros Ha Hl60.
    destruct (C07_keygen_accepts_partial aes F ps [TInt 128] d alpha beta seed0 seed1 HC HReg HRo) as (k0 & k1 & HK).
    { split; [|exact Ha]. repeat constructor. exists (TInt 32), (VNum 1). split; [reflexivity|]. split; [apply (denotes_int 32)|]. apply beta1_repr. }
    destruct (C08_generated_keys aes F ps [TInt 128] d _ _ _ _ k0 k1 HC Ha' HK) as (V0 & V1 & _ & _).
    assert (Hk : forall k, k = k0 \/ k = k1 -> exists c, create_evaluation_context d k = Ok c /\ length (c_params c) = 1%nat).
    { intros k Hk. unfold create_evaluation_context. assert (validate_dpf_key d k = Ok tt) as -> by (destruct Hk; subst; assumption).
      cbn [bind]. eexists. split; [reflexivity|]. cbn [c_params]. transitivity (length ps); [|reflexivity]. exact (created_len _ _ _ _ HC). }
    destruct (Hk k0) as (c0 & Hc0 & Hn0); [auto|]. destruct (Hk k1) as (c1 & Hc1 & Hn1); [auto|].
    set (ks := [Until 0 (TInt 32) []]).
    assert (HH : valid_history ps d None (fun _ => True) ks).
    { unfold ks. constructor; cbn [call_level call_prefixes call_type length]; auto.
      - unfold gap, level_ld. cbn. lia.
      - cbn. lia.
      - unfold expansion_fits. cbn [length Nat.max]. split; [auto|].
        destruct (created_wf _ _ _ _ HC) as (W & _). pose proof (created_len _ _ _ _ HC) as HL. change (length ps) with 1%nat in HL.
        pose proof (wf_h2t_ld _ W 0 ltac:(unfold nlevels in *; clear - HL; lia)) as Hh. pose proof (created_ld _ _ _ _ 0 HC ltac:(cbn; lia)) as Hh'.
        change (level_ld ps 0) with (Z.to_N l) in Hh'. change (nth 0 (d_h2t d) 0%nat) with (h2t d 0).
        rewrite N.mul_1_l. apply N.pow_lt_mono_r; lia.
      - constructor. }
    pose proof (C02_histories aes F ps [TInt 128] d alpha beta seed0 seed1 k0 k1 c0 c1 ks HC Ha' HK Hc0 Hc1 HH) as HX.
    unfold ks in HX. cbn [run_calls run_call] in HX.
    destruct (evaluate_until aes d (TInt 32) (Z.of_nat 0) [] c0) as [r0 c0'] eqn:E0. destruct (evaluate_until aes d (TInt 32) (Z.of_nat 0) [] c1) as [r1 c1'] eqn:E1.
    cbn [history_reconstructs call_level call_type call_prefixes] in HX. destruct HX as ((o0 & o1 & b & v & -> & -> & Hbn & Hv & HR) & _).
    assert (Ev : v = VNum 1).
    { cbn in Hbn. inv Hbn. pose proof beta1_repr as H1. inversion Hv; subst. inversion H1; subst.
      match goal with A : encodes ?i ?x, C : encodes ?i ?y |- _ => rewrite (encodes_fun _ _ _ A C); reflexivity end. }
    subst v. exists o0, o1. rewrite !HM, HK. cbn [value_or_abort bind fst snd].
    assert (HRun : forall k c c' o, create_evaluation_context d k = Ok c -> length (c_params c) = 1%nat ->
      evaluate_until aes d (TInt 32) (Z.of_nat 0) [] c = (Ok o, c') -> run_hierarchical aes d k [[]] = Ok [o]).
    { intros k c c' o H1 H2 H3. unfold run_hierarchical. rewrite H1. cbn [value_or_abort bind length]. rewrite H2. cbn [Nat.eqb negb hierarchical_loop].
      rewrite H3. reflexivity. }
    rewrite (HRun k0 c0 c0' o0), (HRun k1 c1 c1' o1) by auto. split; [reflexivity|]. split; [reflexivity|].
    assert (Eal : alpha_prefix ps alpha 0 = alpha).
    { unfold alpha_prefix, last_ld. cbn [ps experiment_params map length Nat.sub]. rewrite N.sub_diag. apply N.div_1_r. }
    rewrite Eal in HR. unfold outputs, extensions in HR. exact HR.
  - intros Ha party. rewrite HM. rewrite (C07_keygen_rejects_partial aes F ps [TInt 128] d alpha beta seed0 seed1 HC HReg HRo Ha').
    + reflexivity.
    + intros [_ C]. change (last_ld ps) with (Z.to_N l) in C. lia.
Qed.
Print Assumptions C64_one_level.
(** With the default flags the program runs through and expands a domain of 2^20 elements. *)
Theorem C64_default : forall rnd log2 fuel aes F rand seed0 seed1 lines ok, rand < 2 ^ 128 ->
  exists o0 o1,
    experiment_main rnd log2 fuel aes F default_flags lines ok rand seed0 seed1 false = Some (Ok [o0]) /\
    experiment_main rnd log2 fuel aes F default_flags lines ok rand seed0 seed1 true = Some (Ok [o1]) /\
    reconstruct (TInt 32) (rand mod 1048576) (VNum 1) (map N.of_nat (seq 0 (N.to_nat 1048576))) o0 o1.
Proof.
  intros rnd log2 fuel aes F rand seed0 seed1 lines ok Hr.
  destruct (C64_one_level rnd log2 fuel aes F default_flags 20 rand seed0 seed1 lines ok) as [H _]; auto; [left; split; reflexivity|cbn; lia|].
  change 1048576 with (2 ^ Z.to_N 20). apply H; [|lia]. unfold alpha_of. apply N.mod_lt. discriminate.
Qed.
Print Assumptions C64_default.
(** A level of 10 bits, allowed by the flags, makes the program abort for almost every alpha. *)
Theorem C64_level_refuted : exists f, validate_flags f = Ok tt /\ f = with_levels default_flags false [10]%Z /\
  forall rnd log2 fuel aes F rand seed0 seed1 lines ok party, rand < 2 ^ 128 -> 1024 <= rand mod 2 ^ 20 ->
  experiment_main rnd log2 fuel aes F f lines ok rand seed0 seed1 party = Some Crash.
Proof.
  eexists. split; [|split; [reflexivity|]]; [reflexivity|]. intros rnd log2 fuel aes F rand seed0 seed1 lines ok party Hr Ha.
  apply (C64_one_level rnd log2 fuel aes F (with_levels default_flags false [10]%Z) 10 rand seed0 seed1 lines ok); auto; [right; reflexivity|cbn; lia].
Qed.
Print Assumptions C64_level_refuted.
Example C64_one_level_nonvacuous : validate_flags (with_levels default_flags false [10]%Z) = Ok tt /\
  only_level (with_levels default_flags false [10]%Z) 10 /\ alpha_of (with_levels default_flags false [10]%Z) (2 ^ 100 + 5) < 2 ^ Z.to_N 10.
Proof. split; [reflexivity|]. split; [right; reflexivity|vm_compute; reflexivity]. Qed.

(** ** C63 for every allowed factor, 2 included *)
Section Two.
Variables (rnd : Q -> Q) (log2 : Z -> Q).
Hypothesis HR : rounding_ok rnd.
Hypothesis HL : log2_ok log2.
Variables (f : flags) (lines : list (list (option N))) (prefixes : list (list N)).
Hypothesis Hin : fl_input f = true.
Hypothesis HP : main_prefixes f lines true = Ok prefixes.
Hypothesis Hb : exists x, bucket lines x.
Hypothesis Hlines : (Z.of_nat (length lines) < 2 ^ 31)%Z.
Hypothesis Hf : (2 <= fl_factor f < 2 ^ 31)%Z.
Hypothesis Hld : (1 <= fl_ld f <= 128)%Z.
Variable B : Z.
Let n : Z := Z.of_nat (length (last prefixes [])).
Hypothesis HB : (log2 n + log2 (fl_factor f) <= inject_Z B)%Q.

Lemma step_weak : forall back, (0 <= back < fl_ld f)%Z ->
  exists next, next_level rnd log2 prefixes n (fl_factor f) (fl_ld f) back = Ok next /\
    (back <= next <= fl_ld f)%Z /\ (next - back <= B)%Z.
Proof using HR HL Hin HP Hb Hlines Hld Hf HB.
  intros back Hback.
  pose proof (n_range f lines prefixes Hin HP Hb Hlines Hld) as [Hn _].
  destruct (count_range f lines prefixes Hin HP Hb Hlines Hld (Z.to_nat (back + 1)) ltac:(lia)) as (p & Hp & Hm). fold n in Hn, Hm.
  unfold next_level. destruct (back + 1 <? 0)%Z eqn:E1; [lia|].
  unfold at_or_ub. rewrite Hp. cbn [bind]. unfold log2_int.
  destruct (0 <? n)%Z eqn:E2; [|lia]. cbn [bind]. destruct (0 <? fl_factor f)%Z eqn:E3; [|lia]. cbn [bind].
  set (m := Z.of_nat (length p)) in *.
  assert (Em : to_int32 m = m) by (unfold to_int32; rewrite Z.mod_small by lia; lia). rewrite Em.
  destruct (0 <? m)%Z eqn:E4; [|lia]. cbn [bind].
  pose proof (log2_range _ HL n Hn) as Ln. pose proof (log2_range _ HL (fl_factor f) ltac:(lia)) as Lf.
  pose proof (log2_range _ HL m ltac:(lia)) as Lm. pose proof (log2_two _ HL (fl_factor f) Hf) as L4.
  pose proof (log2_mono _ HL m n ltac:(lia) ltac:(lia)) as Lmn.
  set (ln := log2 n) in *. set (lf := log2 (fl_factor f)) in *. set (lm := log2 m) in *.
  assert (Hq : (0 <= inject_Z back)%Q /\ (inject_Z back <= 128)%Q).
  { split; [change 0%Q with (inject_Z 0)|change 128%Q with (inject_Z 128)]; rewrite <- Zle_Qle; lia. }
  set (b := inject_Z back) in *. destruct eps_small as [He He2].
  destruct (rnd_near _ HR (b + ln)) as [R1 R1']; [lra|lra|].
  destruct (rnd_near _ HR (rnd (b + ln) + lf)) as [R2 R2']; [lra|lra|].
  destruct (rnd_near _ HR (rnd (rnd (b + ln) + lf) - lm)) as [R3 R3']; [lra|lra|].
  set (v := rnd (rnd (rnd (b + ln) + lf) - lm)) in *.
  rewrite double_to_int_floor; [|lra|]. 2:{ apply Qle_trans with 1000%Q; [lra|]. vm_compute. discriminate. }
  cbn [bind]. eexists. split; [reflexivity|].
  assert (F1 : (back <= Qfloor v)%Z) by (apply floor_ge; fold b; lra).
  assert (F2 : (Qfloor v < back + B + 1)%Z).
  { apply floor_lt. rewrite !inject_Z_plus. fold b. change (inject_Z 1) with 1%Q. lra. }
  lia.
Qed.
Lemma stuck_none : forall back, (back < fl_ld f)%Z -> next_level rnd log2 prefixes n (fl_factor f) (fl_ld f) back = Ok back ->
  forall fuel levels, levels_loop rnd log2 fuel prefixes n (fl_factor f) (fl_ld f) levels back = None.
Proof using.
  intros back Hb1 HN. apply Z.ltb_lt in Hb1. induction fuel as [|fuel IH]; intros levels; cbn [levels_loop]; rewrite Hb1; [reflexivity|].
  rewrite HN. apply IH.
Qed.
Lemma ends_or_stuck : forall k back, (0 <= back <= fl_ld f)%Z -> (Z.to_nat (fl_ld f - back) <= k)%nat ->
  (exists t, (forall fuel, (k <= fuel)%nat -> levels_loop rnd log2 fuel prefixes n (fl_factor f) (fl_ld f) [] back = Some (Ok t)) /\
     StronglySorted Z.lt (back :: t) /\
     forall i, (S i < length (back :: t))%nat -> (nth (S i) (back :: t) 0 - nth i (back :: t) 0 <= B)%Z) \/
  ((forall fuel, levels_loop rnd log2 fuel prefixes n (fl_factor f) (fl_ld f) [] back = None) /\
   exists l, (0 <= l < fl_ld f)%Z /\ next_level rnd log2 prefixes n (fl_factor f) (fl_ld f) l = Ok l).
Proof using HR HL Hin HP Hb Hlines Hld Hf HB.
  induction k as [|k IH]; intros back Hbk Hk.
  - left. exists []. split; [|split; [repeat constructor|cbn; intros; lia]]. intros fuel _. destruct fuel; cbn [levels_loop]; (destruct (back <? fl_ld f)%Z eqn:E; [lia|reflexivity]).
  - destruct (back <? fl_ld f)%Z eqn:E.
    2:{ left. exists []. split; [|split; [repeat constructor|cbn; intros; lia]]. intros fuel _. destruct fuel; cbn [levels_loop]; rewrite E; reflexivity. }
    destruct (step_weak back ltac:(lia)) as (next & HN & Hlt & HBn).
    destruct (Z.eq_dec next back) as [->|Hne].
    { right. split; [intros fuel; apply stuck_none; [lia|exact HN]|]. exists back. split; [lia|exact HN]. }
    destruct (IH next ltac:(lia) ltac:(lia)) as [(t & Ht & HS & HG)|[HNo Hl]].
    + left. exists (next :: t). split; [|split].
      * intros fuel Hfu. destruct fuel as [|fuel]; [lia|]. cbn [levels_loop]. rewrite E, HN, loop_app, Ht by lia. reflexivity.
      * constructor; [auto|]. constructor; [lia|]. inversion HS; subst. eapply Forall_impl; [|eassumption]. cbn. lia.
      * intros [|i] Hi; [cbn; lia|]. cbn [nth length] in *. apply (HG i). lia.
    + right. split; [|exact Hl]. intros [|fuel]; cbn [levels_loop]; rewrite E; [reflexivity|]. rewrite HN, loop_app, HNo. reflexivity.
Qed.
End Two.
(** For every allowed factor, ComputeLevelsToEvaluate returns levels that increase as stated, or it
    never returns; the latter only if it stays at some level forever, and only for the factor 2. *)
Theorem C63_exact : forall rnd log2 f lines prefixes B,
  rounding_ok rnd -> log2_ok log2 ->
  fl_input f = true -> main_prefixes f lines true = Ok prefixes ->
  lines <> [] -> (Z.of_nat (length lines) < 2 ^ 31)%Z ->
  (2 <= fl_factor f < 2 ^ 31)%Z -> (1 <= fl_ld f <= 128)%Z ->
  (log2 (Z.of_nat (length (last prefixes []))) + log2 (fl_factor f) <= inject_Z B)%Q ->
  (exists levels, rising_levels B (fl_ld f) levels /\
     forall fuel, (Z.to_nat (fl_ld f) <= fuel)%nat -> compute_levels rnd log2 fuel prefixes (fl_ld f) (fl_factor f) = Some (Ok levels)) \/
  (fl_factor f = 2%Z /\ (forall fuel, compute_levels rnd log2 fuel prefixes (fl_ld f) (fl_factor f) = None) /\
   exists l, (0 <= l < fl_ld f)%Z /\
     next_level rnd log2 prefixes (Z.of_nat (length (last prefixes []))) (fl_factor f) (fl_ld f) l = Ok l).
Proof.
  intros rnd log2 f lines prefixes B HR HL Hin HP Hne Hl Hf Hld HB.
  destruct (Z.eq_dec (fl_factor f) 2) as [E2|N2].
  2:{ left. destruct (C63_returns_partial rnd log2 f lines prefixes B HR HL Hin HP Hne Hl ltac:(lia) Hld HB) as (levels & H1 & _ & H2). eauto. }
  assert (Hb : exists x, bucket lines x).
  { unfold main_prefixes in HP. bind_inv HP. rewrite Hin in HP. bind_inv HP. unfold read_unique_values in Hb0. bind_inv Hb0.
    destruct (read_fold _ _ _ ltac:(constructor) Hb1) as (_ & _ & HF & _). destruct lines as [|line lines']; [congruence|].
    inversion HF as [|l' ls (x & rest & ->) _]; subst. exists x, rest. left. reflexivity. }
  set (n := Z.of_nat (length (last prefixes []))) in *.
  pose proof (n_range f lines prefixes Hin HP Hb Hl Hld) as [Hn Hn']. fold n in Hn, Hn'.
  pose proof (log2_range _ HL n Hn) as Ln. pose proof (log2_range _ HL (fl_factor f) ltac:(lia)) as Lf.
  pose proof (log2_two _ HL (fl_factor f) Hf) as L2.
  set (v := rnd (log2 n + log2 (fl_factor f))%Q).
  assert (V1 : (1 <= v)%Q).
  { unfold v. change 1%Q with (inject_Z 1). apply (rnd_ge _ HR); [lia| |lra]. change (inject_Z 1) with 1%Q. lra. }
  destruct eps_small as [He He2].
  destruct (rnd_near _ HR (log2 n + log2 (fl_factor f))) as [R1 R1']; [lra|lra|]. fold v in R1, R1'.
  assert (HFL : first_level rnd log2 prefixes (fl_factor f) (fl_ld f) = Ok (Z.min (fl_ld f) (Qfloor v) - 1)%Z).
  { unfold first_level. cbv zeta. fold n. rewrite Hn'. destruct (n <=? 0)%Z eqn:E1; [lia|]. unfold log2_int.
    destruct (0 <? n)%Z eqn:E3; [|lia]. destruct (0 <? fl_factor f)%Z eqn:E4; [|lia]. cbn [bind].
    fold v. rewrite double_to_int_floor; [reflexivity|lra|]. apply Qle_trans with 1000%Q; [lra|]. vm_compute. discriminate. }
  assert (F1 : (1 <= Qfloor v)%Z) by (apply floor_ge; exact V1).
  assert (F2 : (Qfloor v < B + 1)%Z) by (apply floor_lt; rewrite inject_Z_plus; change (inject_Z 1) with 1%Q; lra).
  set (first := (Z.min (fl_ld f) (Qfloor v) - 1)%Z) in *.
  assert (HC : forall fuel, compute_levels rnd log2 fuel prefixes (fl_ld f) (fl_factor f) =
    match levels_loop rnd log2 fuel prefixes n (fl_factor f) (fl_ld f) [] first with Some (Ok t) => Some (Ok (first :: t)) | o => o end).
  { intros fuel. unfold compute_levels. rewrite HFL. fold n. rewrite Hn', loop_app. reflexivity. }
  destruct (ends_or_stuck rnd log2 HR HL f lines prefixes Hin HP Hb Hl Hf Hld B HB (Z.to_nat (fl_ld f)) first ltac:(lia) ltac:(lia))
    as [(t & Ht & HS & HG)|[HNo Hs]]; [left|right].
  - exists (first :: t). split.
    + destruct (loop_last _ _ _ _ _ _ _ _ _ (Ht (Z.to_nat (fl_ld f)) ltac:(lia)) ltac:(lia)) as (T1 & T2 & T3).
      split; auto; [discriminate|cbn; lia].
    + intros fuel Hfu. rewrite HC. fold n in Ht. rewrite Ht by lia. reflexivity.
  - split; [exact E2|]. split; [|exact Hs]. intros fuel. rewrite HC. fold n in HNo. rewrite HNo. reflexivity.
Qed.
Print Assumptions C63_exact.
(** Both cases occur: the second one in [C63_returns_refuted], the first one here. *)
Example C63_exact_nonvacuous :
  match main_prefixes xe_flags (xe_lines [12; 3; 13; 5]) true with
  | Ok prefixes => exists levels, compute_levels rnd53 xe_log2 40 prefixes 20 2 = Some (Ok levels) /\ (2 < length levels)%nat
  | _ => False
  end.
Proof. vm_compute. eexists. split; [reflexivity|]. repeat constructor. Qed.

(** ** C65 for every choice of the flags about levels *)

Definition flag_levels (f : flags) : list Z := match fl_levels f with [] => [fl_ld f] | ls => map (fun o => match o with Some l => l | None => 0%Z end) ls end.
(** With --only_nonzeros the program evaluates the buckets if there is at most one level and alpha and
    all buckets are in its domain.  Otherwise it aborts. *)
Theorem C65_exact : forall rnd log2 fuel aes F f lines prefixes rand seed0 seed1,
  fl_input f = true -> fl_only_nonzeros f = true ->
  main_prefixes f lines true = Ok prefixes -> (fl_ld f <= 128)%Z -> rand < 2 ^ 128 ->
  (exists l o0 o1, flag_levels f = [l] /\ alpha_of f rand < 2 ^ Z.to_N l /\ Forall (fun x => x < 2 ^ Z.to_N l) (last prefixes []) /\
    experiment_main rnd log2 fuel aes F f lines true rand seed0 seed1 false = Some (Ok [o0]) /\
    experiment_main rnd log2 fuel aes F f lines true rand seed0 seed1 true = Some (Ok [o1]) /\
    reconstruct (TInt 32) (alpha_of f rand) (VNum 1) (last prefixes []) o0 o1) \/
  ((forall l, flag_levels f = [l] -> 2 ^ Z.to_N l <= alpha_of f rand \/ Exists (fun x => 2 ^ Z.to_N l <= x) (last prefixes [])) /\
   forall party, experiment_main rnd log2 fuel aes F f lines true rand seed0 seed1 party = Some Crash).
Proof.
  intros rnd log2 fuel aes F f lines prefixes rand seed0 seed1 Hin Hon HP Hld Hrand.
  assert (HV : validate_flags f = Ok tt).
  { unfold main_prefixes in HP. bind_inv HP. destruct a. exact Hb. }
  assert (Hpos : (0 <= fl_ld f)%Z) by (apply validate_ld; auto).
  destruct (main_prefixes_spec f lines true prefixes Hin HP) as (P1 & _).
  assert (EL : main_levels rnd log2 fuel f prefixes = Some (Ok (flag_levels f))).
  { unfold main_levels, flag_levels. rewrite Hon. destruct (fl_levels f); reflexivity. }
  assert (HLs : flag_levels f <> [] /\ Forall (fun l => 0 <= l <= fl_ld f)%Z (flag_levels f)).
  { unfold flag_levels. unfold validate_flags in HV. bind_inv HV. bind_inv HV. bind_inv HV. bind_inv HV.
    assert (HI : Forall (fun l => 0 <= l <= fl_ld f)%Z (map (fun o => match o with Some l => l | None => 0%Z end) (fl_levels f))).
    { clear - HV. induction (fl_levels f) as [|[l|] ls IH]; cbn [map iterM] in *; [constructor| |discriminate]. bind_inv HV. apply check_ok in Hb.
      constructor; [lia|]. apply IH. exact HV. }
    destruct (fl_levels f) as [|o ls]; [split; [discriminate|repeat constructor; lia]|]. split; [discriminate|exact HI]. }
  unfold experiment_main. rewrite HP, EL. destruct HLs as [Hne HLs]. set (levels := flag_levels f) in *. clearbody levels. clear EL.
  set (alpha := alpha_of f rand).
  assert (Ea : (if (fl_ld f <? 128)%Z then rand mod 2 ^ Z.to_N (fl_ld f) else rand) = alpha).
  { unfold alpha, alpha_of. destruct (fl_ld f <? 128)%Z eqn:E; [reflexivity|].
    replace (fl_ld f) with 128%Z by lia. symmetry. apply N.mod_small. exact Hrand. }
  assert (Ha' : alpha < 2 ^ 128).
  { unfold alpha, alpha_of. eapply N.lt_le_trans; [apply N.mod_lt, N.pow_nonzero; discriminate|]. apply N.pow_le_mono_r; lia. }
  set (ps := experiment_params levels).
  assert (HPE : exists pe, prefixes_to_evaluate prefixes levels = Ok pe).
  { unfold prefixes_to_evaluate.
    assert (HX : forall ls, Forall (fun l => 0 <= l <= fl_ld f)%Z ls ->
      exists r, mapM (fun l => if (l <? 0)%Z then UB else at_or_ub prefixes (Z.to_nat l)) ls = Ok r).
    { induction ls as [|l ls IH]; intros HF; cbn [mapM]; [eauto|]. inversion HF as [|? ? Hl HF']; subst.
      destruct (l <? 0)%Z eqn:E; [lia|]. unfold at_or_ub at 1. destruct (nth_error prefixes (Z.to_nat l)) eqn:En; [|apply nth_error_None in En; lia].
      cbn [bind]. destruct (IH HF') as (r & ->). cbn [bind]. eauto. }
    destruct (HX (removelast levels)) as (r & ->); [|cbn [bind]; eauto].
    apply Forall_forall. intros l Hl. apply (proj1 (Forall_forall _ _) HLs). clear - Hl. induction levels as [|a levels IH]; [destruct Hl|].
    destruct levels as [|b levels]; [destruct Hl|]. destruct Hl as [<-|Hl]; [left; reflexivity|right; apply IH; exact Hl]. }
  destruct HPE as (pe & HPE).
  set (beta := map (fun _ : Z => to_value (TInt 128) (VNum 1)) levels).
  assert (HM : forall party, main_run aes F f prefixes levels rand seed0 seed1 party =
    bind (value_or_abort (create_incremental F ps)) (fun d0 => let d := register_value_type (TInt 128) d0 in
    bind (value_or_abort (generate_keys aes d alpha beta seed0 seed1)) (fun k => run_batched aes d (if party then snd k else fst k) (last prefixes [])))).
  { intros party. unfold main_run. rewrite HPE. cbn [bind]. fold ps. destruct (create_incremental F ps) as [d0|c| |]; cbn [value_or_abort bind]; auto.
    rewrite Ea. cbv zeta. fold beta. destruct (generate_keys _ _ _ _ _ _) as [[k0 k1]|c| |]; cbn [value_or_abort bind]; auto. rewrite Hon. reflexivity. }
  assert (HS : safe (create_incremental F ps)).
  { apply C09_no_crash_partial. apply Forall_forall. intros p Hp. apply in_map_iff in Hp. destruct Hp as (l & <- & _). split; reflexivity. }
  assert (HIn : forall d0, create_incremental F ps = Ok d0 -> let d := register_value_type (TInt 128) d0 in
    created F ps [TInt 128] d /\ registered ps [TInt 128] /\ Forall (roomy ps d) [TInt 128]).
  { intros d0 Hd d. assert (HC : created F ps [TInt 128] d) by (exists d0; split; [exact Hd|]; split; [repeat constructor|reflexivity]).
    split; [exact HC|]. split; [|repeat constructor; eapply DpfFacts.shape_roomy; [exact HC|reflexivity]].
    apply Forall_forall. intros p Hp. apply in_map_iff in Hp. destruct Hp as (l & <- & _). exists (TInt 32). split; [cbn; tauto|reflexivity]. }
  assert (HBeta : alpha < 2 ^ last_ld ps -> keygen_args ps alpha beta).
  { intros Ha. split; [|exact Ha]. unfold ps, beta, experiment_params. clear. induction levels as [|l levels IH]; [constructor|]. cbn [map]. constructor; [|exact IH].
    exists (TInt 32), (VNum 1). split; [reflexivity|]. split; [apply (denotes_int 32)|]. apply beta1_repr. }
  destruct (create_incremental F ps) as [d0|c| |] eqn:Hd; [| |destruct HS; congruence|destruct HS; congruence].
  2:{ right. split; [|intros party; rewrite HM; reflexivity]. intros l ->.
      exfalso. destruct (create_accepts F ps) as (d0 & Hd0); [| |congruence].
      - fcons HLs Hl0 HLs'. split.
        + discriminate.
        + repeat constructor; cbn [p_ld]; lia.
        + intros [|i] [|j] p q Hij Hp Hq; try lia; cbn in Hq; destruct j; discriminate.
        + repeat constructor. exists (PTInteger 32). split; [reflexivity|]. constructor. exists 5%Z. split; [lia|reflexivity].
        + repeat constructor; cbn; discriminate.
      - repeat constructor. exists (TInt 32). split; [reflexivity|]. split; [apply (denotes_int 32)|]. left. reflexivity. }
  cbn [value_or_abort bind] in HM. destruct (HIn d0 eq_refl) as (HC & HReg & HRo). set (d := register_value_type (TInt 128) d0) in *. clear HIn HS.
  pose proof (created_len _ _ _ _ HC) as HL. unfold nlevels in HL. assert (EPs : length ps = length levels) by apply map_length.
  destruct (N.ltb_spec alpha (2 ^ last_ld ps)) as [Ha|Ha].
  2:{ right. split.
      - intros l ->. left. exact Ha.
      - intros party. rewrite HM, (C07_keygen_rejects_partial aes F ps [TInt 128] d alpha beta seed0 seed1 HC HReg HRo Ha'); [reflexivity|].
        intros [_ C]. lia. }
  destruct (C07_keygen_accepts_partial aes F ps [TInt 128] d alpha beta seed0 seed1 HC HReg HRo (HBeta Ha)) as (k0 & k1 & HK).
  rewrite HK in HM. cbn [value_or_abort bind fst snd] in HM. unfold run_batched in HM. rewrite HL, EPs in HM.
  destruct (Nat.eqb_spec (length levels) 1) as [E1|N1]; cbn [negb] in HM.
  2:{ right. split; [|intros party; rewrite HM; reflexivity]. intros l ->. cbn in N1. lia. }
  destruct levels as [|l [|? ?]]; try discriminate E1. change (last_ld ps) with (Z.to_N l) in Ha.
  assert (HT : level_has ps 0 (TInt 32)).
  { split; [reflexivity|]. eexists. split; [reflexivity|]. apply (denotes_int 32). }
  assert (HFE : Forall (fun x => x < 2 ^ Z.to_N l) (last prefixes []) \/ Exists (fun x => 2 ^ Z.to_N l <= x) (last prefixes [])).
  { clear. induction (last prefixes []) as [|x xs IH]; [left; constructor|]. destruct (N.ltb_spec x (2 ^ Z.to_N l)) as [H|H]; [|right; left; exact H].
    destruct IH as [IH|IH]; [left; constructor; assumption|right; right; exact IH]. }
  destruct HFE as [HF|HE].
  - left. destruct (C01_evaluate_at_shares aes F ps [TInt 128] d alpha beta seed0 seed1 k0 k1 HC Ha' HK 0%nat (TInt 32) HT)
      as (b & v & Hbn & Hv & HE).
    assert (Ev : v = VNum 1).
    { cbn in Hbn. inv Hbn. pose proof beta1_repr as H1. inversion Hv; subst. inversion H1; subst.
      match goal with A : encodes ?i ?x, C : encodes ?i ?y |- _ => rewrite (encodes_fun _ _ _ A C); reflexivity end. }
    subst v. destruct (HE (last prefixes []) HF) as (o0 & o1 & E0 & E1' & HR).
    assert (Eal : alpha_prefix ps alpha 0 = alpha).
    { unfold alpha_prefix, last_ld. cbn [ps experiment_params map length Nat.sub]. rewrite N.sub_diag. apply N.div_1_r. }
    rewrite Eal in HR. pose proof (Forall3_lengths _ _ _ _ _ _ _ HR) as [N0 N1]. rewrite map_length in N0, N1.
    change (Z.of_nat 0) with 0%Z in E0, E1'. exists l, o0, o1. split; [reflexivity|]. split; [exact Ha|]. split; [exact HF|].
    rewrite !HM, E0, E1'. cbn [value_or_abort bind]. rewrite N0, N1, Nat.eqb_refl. cbn [negb]. auto.
  - right. split.
    + intros l' E. injection E as <-. right. exact HE.
    + intros party. rewrite HM. apply Exists_exists in HE. destruct HE as (x & Hx & Hr).
      rewrite (proj1 (C46_evaluate_at_partial aes F ps [TInt 128] d (TInt 32) (if party then k1 else k0) 0 (last prefixes []) {| c_params := []; c_key := None; c_prev := 0; c_partials := []; c_plevel := 0 |} HC ltac:(cbn; lia) (ex_intro _ x (conj Hx Hr)))).
      reflexivity.
Qed.
Print Assumptions C65_exact.
Example C65_exact_nonvacuous :
  match main_prefixes (xe_batched [10]%Z) (xe_lines [7; 9]) true, main_prefixes (xe_batched [10]%Z) (xe_lines [7; 5000]) true with
  | Ok p, Ok p' => flag_levels (xe_batched [10]%Z) = [10]%Z /\ alpha_of (xe_batched [10]%Z) (2 ^ 100 + 5) = 5 /\ Forall (fun x => x < 2 ^ 10) (last p []) /\ Exists (fun x => 2 ^ 10 <= x) (last p' [])
  | _, _ => False
  end.
Proof. vm_compute. split; [reflexivity|]. split; [reflexivity|]. split; [repeat constructor|]. right. left. discriminate. Qed.
