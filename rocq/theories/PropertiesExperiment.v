(** Properties of the experiment program (C62-C65). *)
From Coq Require Import List NArith ZArith QArith Qround Lia Lqa Bool Sorted ZifyBool ZifyNat ZifyN.
From Verif Require Import Base ListUtil ValueTypesModel ValueTypesSpec DpfModel DpfSpec DpfExamples
  ExperimentModel ExperimentProofs.
Import ListNotations.
Open Scope N_scope.

(** ** Doubles *)

(** Rounding to nearest, ties to even, with 53 significant bits: the rounding of IEEE 754
    doubles between 2^-1022 and 2^1024.  The model only rounds numbers that are not
    negative. *)
Definition round_even (num den : Z) : Z :=
  let q := (num / den)%Z in
  let r := (num mod den)%Z in
  if (2 * r <? den)%Z then q else if (den <? 2 * r)%Z then (q + 1)%Z
  else if Z.even q then q else (q + 1)%Z.
Definition shift53 (a b : Z) : Z :=
  let k := (52 - (Z.log2 a - Z.log2 b))%Z in
  if (a * 2 ^ Z.max 0 k <? b * 2 ^ (52 + Z.max 0 (- k)))%Z then (k + 1)%Z else k.
Definition rnd53 (x : Q) : Q :=
  match Qnum x with
  | Zpos _ =>
      let a := Qnum x in
      let b := Zpos (Qden x) in
      let k := shift53 a b in
      let m := round_even (a * 2 ^ Z.max 0 k) (b * 2 ^ Z.max 0 (- k)) in
      if (0 <=? k)%Z then Qmake m (Z.to_pos (2 ^ k)) else inject_Z (m * 2 ^ (- k))
  | _ => 0%Q
  end.

Lemma round_even_bounds : forall num den, (0 < den)%Z -> (0 <= num)%Z ->
  (num / den <= round_even num den)%Z /\ (2 * num - den <= 2 * den * round_even num den <= 2 * num + den)%Z.
Proof.
  intros num den Hd Hn. unfold round_even. pose proof (Z.div_mod num den ltac:(lia)) as E.
  pose proof (Z.mod_pos_bound num den Hd) as Hr. set (q := (num / den)%Z) in *. set (r := (num mod den)%Z) in *.
  destruct (2 * r <? den)%Z eqn:E1; [split; [lia|nia]|]. destruct (den <? 2 * r)%Z eqn:E2; [split; [lia|nia]|].
  destruct (Z.even q); split; try lia; nia.
Qed.

Lemma shift53_ge : forall a b, (0 < a)%Z -> (0 < b)%Z -> (a <= 1024 * b)%Z -> (42 <= shift53 a b)%Z.
Proof.
  intros a b Ha Hb H. unfold shift53.
  assert (HL : (Z.log2 a <= Z.log2 b + 10)%Z).
  { rewrite <- (Z.log2_shiftl b 10) by lia. apply Z.log2_le_mono. rewrite Z.shiftl_mul_pow2 by lia. change (2 ^ 10)%Z with 1024%Z. lia. }
  set (k := (52 - (Z.log2 a - Z.log2 b))%Z). destruct (_ <? _)%Z; lia.
Qed.

Theorem rnd53_ok : rounding_ok rnd53.
Proof.
  assert (HX : forall x, (0 < Qnum x)%Z -> (x <= 1024)%Q ->
     exists k m, (42 <= k)%Z /\ rnd53 x = Qmake m (Z.to_pos (2 ^ k)) /\
       m = round_even (Qnum x * 2 ^ k) (Zpos (Qden x))).
  { intros x Hx H1. unfold rnd53. destruct (Qnum x) as [|a|a] eqn:Ea; try lia. rewrite <- Ea in *.
    assert (Hs : (42 <= shift53 (Qnum x) (Zpos (Qden x)))%Z).
    { apply shift53_ge; [lia|lia|]. unfold Qle in H1. cbn in H1. lia. }
    set (k := shift53 (Qnum x) (Zpos (Qden x))) in *.
    exists k, (round_even (Qnum x * 2 ^ k) (Zpos (Qden x))). split; [exact Hs|].
    replace (Z.max 0 k) with k by lia. replace (Z.max 0 (- k)) with 0%Z by lia. rewrite Z.pow_0_r, Z.mul_1_r.
    destruct (0 <=? k)%Z eqn:E; [|lia]. split; reflexivity. }
  split.
  - intros z x Hz Hzx Hx.
    destruct (Z_lt_le_dec 0 (Qnum x)) as [Hp|Hp].
    + destruct (HX x Hp Hx) as (k & m & Hk & -> & ->).
      assert (Hpow : (0 < 2 ^ k)%Z) by (apply Z.pow_pos_nonneg; lia).
      destruct (round_even_bounds (Qnum x * 2 ^ k) (Zpos (Qden x)) ltac:(lia) ltac:(nia)) as [HB _].
      unfold Qle, inject_Z in *. cbn [Qnum Qden] in *. rewrite Z2Pos.id by lia.
      assert (z * 2 ^ k <= Qnum x * 2 ^ k / Zpos (Qden x))%Z.
      { apply Z.div_le_lower_bound; [lia|]. nia. }
      lia.
    + assert (z = 0)%Z. { unfold Qle, inject_Z in Hzx. cbn [Qnum Qden] in Hzx. nia. }
      subst. unfold rnd53. destruct (Qnum x); try lia; discriminate.
  - intros x H0 Hx. destruct (Z_lt_le_dec 0 (Qnum x)) as [Hp|Hp].
    + destruct (HX x Hp Hx) as (k & m & Hk & -> & ->).
      assert (Hpow : (2 ^ 42 <= 2 ^ k)%Z) by (apply Z.pow_le_mono_r; lia).
      destruct (round_even_bounds (Qnum x * 2 ^ k) (Zpos (Qden x)) ltac:(lia) ltac:(nia)) as [_ HB].
      set (m := round_even _ _) in *. set (K := (2 ^ k)%Z) in *. clearbody m K.
      change (2 ^ 42)%Z with 4398046511104%Z in Hpow.
      unfold eps, Qle, Qminus, Qopp, Qplus. cbn [Qnum Qden]. rewrite !Pos2Z.inj_mul, Z2Pos.id by lia.
      set (a := Qnum x) in *. set (b := Zpos (Qden x)) in *.
      assert (Hb : (0 < b)%Z) by reflexivity. clearbody a b.
      split; nia.
    + assert (Qnum x = 0)%Z. { unfold Qle in H0. cbn [Qnum Qden] in H0. lia. }
      assert (Ex : (x == 0)%Q) by (unfold Qeq; cbn [Qnum Qden]; lia).
      assert (E : (rnd53 x == 0)%Q) by (unfold rnd53; rewrite H; reflexivity).
      rewrite E, Ex. split; unfold eps; discriminate.
Qed.

(** ** C62: the prefixes of the buckets *)

(** A run that gets past reading the file has, for every length i from 1 to
    log_domain_size, exactly the i-bit prefixes of the buckets, each once and in increasing
    order, and nothing at index 0. *)
Theorem C62_prefixes : forall f lines reader_ok prefixes, fl_input f = true ->
  main_prefixes f lines reader_ok = Ok prefixes ->
  Z.of_nat (length prefixes) = (fl_ld f + 1)%Z /\
  ((0 < fl_ld f)%Z -> nth 0 prefixes [] = []) /\
  forall i, (1 <= Z.of_nat i <= fl_ld f)%Z ->
    StronglySorted N.lt (nth i prefixes []) /\
    forall y, In y (nth i prefixes []) <->
      exists x rest, In (Some x :: rest) lines /\ y = x / 2 ^ (Z.to_N (fl_ld f) - N.of_nat i).
Proof.
  intros f lines ok prefixes Hin HP. destruct (main_prefixes_spec f lines ok prefixes Hin HP) as (P1 & P2 & P3 & P4 & P5).
  assert (0 <= fl_ld f)%Z.
  { unfold main_prefixes in HP. bind_inv HP. destruct a. apply validate_ld. auto. }
  split; [lia|]. split; [auto|]. intros i Hi. destruct (P5 i ltac:(lia) ltac:(lia)) as (Q1 & _ & Q2). split; [auto|].
  intros y. rewrite Q2. unfold bucket. split.
  - intros (x & (rest & Hx) & ->). eauto.
  - intros (x & rest & Hx & ->). eauto.
Qed.
Print Assumptions C62_prefixes.
(** A run gets past reading the file iff the flags are as documented and every line starts
    with an integer. *)
Theorem C62_accepted_partial : forall f lines reader_ok, fl_input f = true -> (fl_ld f < 2 ^ 31 - 1)%Z ->
  (exists prefixes, main_prefixes f lines reader_ok = Ok prefixes) <->
  ((0 <= fl_ld f)%Z /\ (0 < fl_iterations f)%Z /\ (2 <= fl_factor f)%Z /\
   Forall (fun o => exists l, o = Some l /\ (1 <= l <= fl_ld f)%Z) (fl_levels f) /\
   Forall (fun line => exists x rest, line = Some x :: rest) lines /\ reader_ok = true).
Proof.
  intros f lines ok Hin Hld.
  assert (HI : forall ls, iterM (fun o => match o with
                  | Some l => check ((0 <? l)%Z && (l <=? fl_ld f)%Z) INVALID_ARGUMENT
                  | None => Err INVALID_ARGUMENT
                  end) ls = Ok tt <-> Forall (fun o => exists l, o = Some l /\ (1 <= l <= fl_ld f)%Z) ls).
  { induction ls as [|o ls IH]; cbn [iterM].
    - split; constructor.
    - split.
      + intros H. bind_inv H. destruct a. apply IH in H. constructor; auto. destruct o as [l|]; [|discriminate].
        apply check_ok in Hb. exists l. split; auto. lia.
      + intros H. inversion H as [|o' ls' (l & -> & Hl) H2]; subst. apply IH in H2. rewrite H2.
        unfold check. destruct ((0 <? l)%Z && (l <=? fl_ld f)%Z) eqn:E; [reflexivity|lia]. }
  split.
  - intros (prefixes & H). unfold main_prefixes in H. bind_inv H. destruct a. rewrite Hin in H. bind_inv H.
    unfold validate_flags in Hb. bind_inv Hb. bind_inv Hb. bind_inv Hb. bind_inv Hb.
    apply check_ok in Hb1, Hb2, Hb3, Hb4. apply HI in Hb.
    unfold read_unique_values in Hb0. bind_inv Hb0. bind_inv Hb0. apply check_ok in Hb6.
    destruct (read_fold _ _ _ ltac:(constructor) Hb5) as (_ & _ & HF & _).
    repeat split; auto; lia.
  - intros (H1 & H2 & H3 & H4 & H5 & ->). apply HI in H4.
    assert (HV : validate_flags f = Ok tt).
    { unfold validate_flags. rewrite H4, Hin. unfold check.
      destruct (0 <=? fl_ld f)%Z eqn:E1; [|lia]. destruct (0 <? fl_iterations f)%Z eqn:E2; [|lia].
      destruct (2 <=? fl_factor f)%Z eqn:E3; [|lia]. cbn [bind]. destruct (fl_only_nonzeros f); reflexivity. }
    destruct (read_accepts _ H5) as (s & Hs).
    unfold main_prefixes. rewrite HV, Hin, Hs. cbn [bind]. unfold compute_prefixes.
    destruct (fl_ld f =? 2 ^ 31 - 1)%Z eqn:E; [lia|]. eauto.
Qed.
Print Assumptions C62_accepted_partial.
(** The default flags, with an input file. *)
Definition xe_flags : flags :=
  {| fl_input := true; fl_ld := 20; fl_iterations := 20; fl_factor := 2; fl_only_nonzeros := false; fl_levels := [] |}.
Definition xe_small : flags :=
  {| fl_input := true; fl_ld := 4; fl_iterations := 1; fl_factor := 4; fl_only_nonzeros := false; fl_levels := [] |}.
Definition xe_lines (l : list N) : list (list (option N)) := map (fun x => [Some x; None]) l.
Example C62_nonvacuous :
  main_prefixes xe_small (xe_lines [12; 3; 13; 3]) true = Ok [[]; [0; 1]; [0; 3]; [1; 6]; [3; 12; 13]] /\
  main_prefixes xe_small ([] :: xe_lines [12]) true = Err INVALID_ARGUMENT.
Proof. vm_compute. auto. Qed.

(** ** C63: the choice of the levels *)

(** Whatever log2 computes: if ComputeLevelsToEvaluate returns, then its levels end with
    log_domain_size, none is larger and none occurs twice. *)
Theorem C63_levels_partial : forall rnd log2 fuel prefixes ld factor levels,
  compute_levels rnd log2 fuel prefixes ld factor = Some (Ok levels) ->
  last levels 0%Z = ld /\ Forall (fun l => l <= ld)%Z levels /\ NoDup levels /\ (2 <= length levels)%nat.
Proof.
  intros rnd log2 fuel prefixes ld factor levels H. unfold compute_levels in H.
  destruct (first_level rnd log2 prefixes factor ld) as [first|c| |] eqn:EF; try discriminate.
  rewrite loop_app in H.
  destruct (levels_loop rnd log2 fuel prefixes (to_int32 (Z.of_nat (length (last prefixes [])))) factor ld [] first)
    as [[t|c| |]|] eqn:E; try discriminate. inv H.
  assert (Hf : (first < ld)%Z).
  { unfold first_level in EF. cbv zeta in EF. destruct (_ <=? 0)%Z; [discriminate|].
    do 3 (apply bind_ok in EF; destruct EF as (? & _ & EF)). inv EF. lia. }
  destruct (loop_last _ _ _ _ _ _ _ _ _ E ltac:(lia)) as (L1 & L2 & L3).
  split; [exact L1|]. split; [constructor; [lia|auto]|]. split; [exact (loop_nodup _ _ _ _ _ _ _ _ _ E)|].
  specialize (L3 Hf). destruct t; [congruence|cbn; lia].
Qed.
Print Assumptions C63_levels_partial.
(** It returns if max_expansion_factor is at least 3, after at most log_domain_size iterations, and then
    its levels increase in steps of at most log2(number of buckets) + log2(max_expansion_factor) bits.
    They are at least 1 if there are two bits and the factor is at least 4 or there are two buckets. *)
Theorem C63_returns_partial : forall rnd log2 f lines prefixes B,
  rounding_ok rnd -> log2_ok log2 ->
  fl_input f = true -> main_prefixes f lines true = Ok prefixes ->
  lines <> [] -> (Z.of_nat (length lines) < 2 ^ 31)%Z ->
  (3 <= fl_factor f < 2 ^ 31)%Z -> (1 <= fl_ld f <= 128)%Z ->
  (log2 (Z.of_nat (length (last prefixes []))) + log2 (fl_factor f) <= inject_Z B)%Q ->
  exists levels, rising_levels B (fl_ld f) levels /\
    ((2 <= fl_ld f)%Z -> (4 <= fl_factor f)%Z \/ (2 <= length (last prefixes []))%nat -> good_levels B (fl_ld f) levels) /\
    forall fuel, (Z.to_nat (fl_ld f) <= fuel)%nat ->
      compute_levels rnd log2 fuel prefixes (fl_ld f) (fl_factor f) = Some (Ok levels).
Proof.
  intros rnd log2 f lines prefixes B HR HL Hin HP Hne Hl Hf Hld HB.
  assert (Hbk : exists x, bucket lines x).
  2:{ destruct (levels_end rnd log2 HR HL f lines prefixes Hin HP Hbk Hl Hf Hld B HB) as (levels & H1 & H2 & H3).
      exists levels. split; [exact H1|]. split; [|exact H3]. intros Hl2 H. apply H2; [exact Hl2|]. lia. }
  unfold main_prefixes in HP. bind_inv HP. rewrite Hin in HP. bind_inv HP. unfold read_unique_values in Hb0. bind_inv Hb0.
  destruct (read_fold _ _ _ ltac:(constructor) Hb1) as (_ & _ & HF & _). destruct lines as [|line lines]; [congruence|].
  inversion HF as [|l' ls (x & rest & ->) _]; subst. exists x, rest. left. reflexivity.
Qed.
Print Assumptions C63_returns_partial.
(** With the default max_expansion_factor 2 the program does not end on some inputs: the
    loop stays at the same level.  53-bit rounding and a correctly rounded log2(5). *)
Definition log2_5 : Q := 0x12934f0979a371 # 0x8000000000000.
Theorem C63_returns_refuted : exists f lines, validate_flags f = Ok tt /\ f = xe_flags /\
  Forall (fun line => exists x rest, line = Some x :: rest /\ x < 2 ^ Z.to_N (fl_ld f)) lines /\
  forall log2 aes F rand seed0 seed1 party, log2 2%Z = 1%Q -> log2 5%Z = log2_5 ->
  forall fuel, experiment_main rnd53 log2 fuel aes F f lines true rand seed0 seed1 party = None.
Proof.
  exists xe_flags, (xe_lines [0; 131072; 262144; 393216; 524288]). split; [reflexivity|]. split; [reflexivity|]. split.
  { apply Forall_forall. intros line Hl. apply in_map_iff in Hl. destruct Hl as (x & <- & Hx). exists x, [None].
    split; [reflexivity|]. cbn in Hx. destruct Hx as [<-|[<-|[<-|[<-|[<-|[]]]]]]; reflexivity. }
  intros log2 aes F rand seed0 seed1 party E2 E5 fuel. unfold experiment_main.
  destruct (main_prefixes xe_flags _ true) as [prefixes|c| |] eqn:EP; vm_compute in EP; try discriminate.
  injection EP as <-. unfold main_levels. cbn [fl_levels xe_flags].
  match goal with |- context [compute_levels _ _ _ ?p _ _] => set (P := p) end.
  change (negb (fl_only_nonzeros xe_flags) && negb (Nat.eqb (length (last P [])) 0)) with true. cbv iota.
  unfold compute_levels.
  assert (EN : to_int32 (Z.of_nat (length (last P []))) = 5%Z) by reflexivity.
  assert (E1 : first_level rnd53 log2 P (fl_factor xe_flags) (fl_ld xe_flags) = Ok 2%Z).
  { unfold first_level. rewrite EN. cbv zeta. change (5 <=? 0)%Z with false. cbv iota. unfold log2_int.
    change (0 <? 5)%Z with true. change (fl_factor xe_flags) with 2%Z. change (0 <? 2)%Z with true. cbn [bind].
    rewrite E2, E5. vm_compute. reflexivity. }
  assert (EL : next_level rnd53 log2 P 5 (fl_factor xe_flags) (fl_ld xe_flags) 2 = Ok 2%Z).
  { unfold next_level. change (2 + 1 <? 0)%Z with false. cbv iota.
    change (at_or_ub P (Z.to_nat (2 + 1))) with (Ok [0; 1; 2; 3; 4]). cbn [bind]. unfold log2_int.
    change (0 <? 5)%Z with true. change (fl_factor xe_flags) with 2%Z. change (0 <? 2)%Z with true.
    change (to_int32 (Z.of_nat (length [0; 1; 2; 3; 4]))) with 5%Z. change (0 <? 5)%Z with true. cbn [bind].
    rewrite E2, E5. vm_compute. reflexivity. }
  rewrite E1, EN. 
  assert (HX : forall fuel levels, levels_loop rnd53 log2 fuel P 5 (fl_factor xe_flags) (fl_ld xe_flags) levels 2 = None).
  { induction fuel0 as [|fuel0 IH]; intros levels; cbn [levels_loop]; change (2 <? fl_ld xe_flags)%Z with true; cbv iota; [reflexivity|].
    rewrite EL. apply IH. }
  rewrite HX. reflexivity.
Qed.
Print Assumptions C63_returns_refuted.
(** A log2 with the required accuracy (an integer approximation from below; the real one is
    another). *)
Definition xe_log2 (z : Z) : Q := if (z =? 3)%Z then 3 # 2 else inject_Z (Z.log2 z).
Lemma xe_log2_ok : log2_ok xe_log2.
Proof.
  assert (HM : forall y z, (1 <= y <= z)%Z -> (inject_Z (Z.log2 y) <= inject_Z (Z.log2 z))%Q) by (intros y z H; rewrite <- Zle_Qle; apply Z.log2_le_mono; lia).
  assert (H3 : forall z, (4 <= z)%Z -> (2 <= inject_Z (Z.log2 z))%Q) by (intros z Hz; change 2%Q with (inject_Z (Z.log2 4)); apply HM; lia).
  assert (H2 : forall z, (2 <= z)%Z -> (1 <= inject_Z (Z.log2 z))%Q) by (intros z Hz; change 1%Q with (inject_Z (Z.log2 2)); apply HM; lia).
  destruct eps_small as [He _].
  split; unfold xe_log2.
  - intros z Hz. destruct (Z.eqb_spec z 3); [lra|]. change 0%Q with (inject_Z 0). change 31%Q with (inject_Z 31). rewrite <- !Zle_Qle.
    split; [apply Z.log2_nonneg|]. assert (Z.log2 z < 31)%Z by (apply Z.log2_lt_pow2; lia). lia.
  - intros z Hz. destruct (Z.eqb_spec z 3); [lra|]. apply H2. lia.
  - intros z Hz. destruct (Z.eqb_spec z 3); [lra|]. specialize (H3 z ltac:(lia)). lra.
  - intros z Hz. destruct (Z.eqb_spec z 3); [lia|]. apply H3. lia.
  - intros y z Hy Hz. destruct (Z.eqb_spec y 3), (Z.eqb_spec z 3); [lra| | |].
    + specialize (H3 z ltac:(lia)). lra.
    + assert (inject_Z (Z.log2 y) <= inject_Z (Z.log2 2))%Q by (apply HM; lia). change (inject_Z (Z.log2 2)) with 1%Q in *. lra.
    + pose proof (HM y z Hy). lra.
Qed.
Example C63_nonvacuous :
  rounding_ok rnd53 /\ log2_ok xe_log2 /\
  match main_prefixes xe_small (xe_lines [12; 3; 13; 3]) true with
  | Ok prefixes => compute_levels rnd53 xe_log2 4 prefixes 4 4 = Some (Ok [2; 4]%Z)
  | _ => False
  end.
Proof. split; [exact rnd53_ok|]. split; [exact xe_log2_ok|]. vm_compute. reflexivity. Qed.

(** ** C64: hierarchical evaluation of the buckets *)

(** The random integer reduced to the domain. *)
Definition alpha_of (f : flags) (rand : N) : N := rand mod 2 ^ Z.to_N (fl_ld f).

(** For good levels (given by --levels_to_evaluate or computed) the program runs through,
    and the outputs of the two keys are, at every level, shares of 1 at the prefix of
    alpha and of 0 at all other evaluated elements, which include the prefixes of all
    buckets. *)
Theorem C64_good_levels_partial : forall aes F f lines prefixes levels rand seed0 seed1,
  fl_input f = true -> main_prefixes f lines true = Ok prefixes -> fl_only_nonzeros f = false ->
  lines <> [] -> N.of_nat (length lines) < 2 ^ 30 -> (fl_ld f <= 128)%Z -> rand < 2 ^ 128 ->
  Forall (fun line => forall x rest, line = Some x :: rest -> x < 2 ^ Z.to_N (fl_ld f)) lines ->
  good_levels 26 (fl_ld f) levels ->
  exists o0 o1, main_run aes F f prefixes levels rand seed0 seed1 false = Ok o0 /\
    main_run aes F f prefixes levels rand seed0 seed1 true = Ok o1 /\
    length o0 = length levels /\ length o1 = length levels /\
    forall i, (i < length levels)%nat ->
      reconstruct (TInt 32) (alpha_of f rand / 2 ^ Z.to_N (fl_ld f - nth i levels 0%Z)) (VNum 1)
        (points prefixes levels i) (nth i o0 []) (nth i o1 []) /\
      forall x rest, In (Some x :: rest) lines ->
        In (x / 2 ^ Z.to_N (fl_ld f - nth i levels 0%Z)) (points prefixes levels i).
Proof.
  intros aes F f lines prefixes levels rand seed0 seed1 Hin HP Hon Hne Hlines Hld Hrand Hrange HG.
  assert (Hb : exists x, bucket lines x).
  { unfold main_prefixes in HP. bind_inv HP. rewrite Hin in HP. bind_inv HP. unfold read_unique_values in Hb0. bind_inv Hb0.
    destruct (read_fold _ _ _ ltac:(constructor) Hb1) as (_ & _ & HF & _). destruct lines as [|line lines]; [congruence|].
    inversion HF as [|l' ls (x & rest & ->) _]; subst. exists x, rest. left. reflexivity. }
  assert (Hr : forall x, bucket lines x -> x < 2 ^ Z.to_N (fl_ld f)).
  { intros x (rest & Hx). rewrite Forall_forall in Hrange. exact (Hrange _ Hx x rest eq_refl). }
  destruct (experiment_create aes F f lines prefixes Hin HP Hb Hr Hlines Hld levels HG) as (d0 & Hd).
  assert (Ha : alpha_of f rand < 2 ^ Z.to_N (fl_ld f)) by (apply N.mod_lt, N.pow_nonzero; discriminate).
  destruct (experiment_keys aes F f lines prefixes Hin HP Hb Hr Hlines Hld levels HG d0 Hd _ seed0 seed1 Ha) as (k0 & k1 & HK).
  destruct (run_reconstructs aes F f lines prefixes Hin HP Hb Hr Hlines Hld levels HG d0 Hd _ seed0 seed1 k0 k1 Ha HK)
    as (o0 & o1 & E0 & E1 & N0 & N1 & HX).
  exists o0, o1.
  assert (HM : forall party : bool, main_run aes F f prefixes levels rand seed0 seed1 party = Ok (if party then o1 else o0)).
  { intros party. unfold main_run. rewrite (pe_ok aes F f lines prefixes Hin HP Hb Hr Hlines Hld levels HG). cbn [bind].
    rewrite Hd. cbn [value_or_abort bind].
    assert (Ea : (if (fl_ld f <? 128)%Z then rand mod 2 ^ Z.to_N (fl_ld f) else rand) = alpha_of f rand).
    { unfold alpha_of. destruct (fl_ld f <? 128)%Z eqn:E; [reflexivity|].
      replace (fl_ld f) with 128%Z by lia. symmetry. apply N.mod_small. exact Hrand. }
    rewrite Ea. cbv zeta. unfold beta1 in HK. rewrite HK. cbn [value_or_abort bind]. rewrite Hon. destruct party; auto. }
  split; [apply (HM false)|]. split; [apply (HM true)|]. split; [auto|]. split; [auto|].
  intros i Hi. split; [exact (HX i Hi)|]. intros x rest Hx.
  apply (buckets_covered aes F f lines prefixes Hin HP Hb Hr Hlines Hld levels HG d0 Hd); [auto|]. exists rest. auto.
Qed.
Print Assumptions C64_good_levels_partial.
(** The whole program with the levels it chooses, for max_expansion_factor at least 4, or 3 with
    two different buckets, and
    inputs that are not too large. *)
Theorem C64_main_partial : forall rnd log2 fuel aes F f lines rand seed0 seed1,
  rounding_ok rnd -> log2_ok log2 ->
  validate_flags f = Ok tt -> fl_input f = true -> fl_only_nonzeros f = false -> fl_levels f = [] ->
  (3 <= fl_factor f < 2 ^ 31)%Z -> (2 <= fl_ld f <= 128)%Z -> (Z.to_nat (fl_ld f) <= fuel)%nat ->
  (4 <= fl_factor f)%Z \/ (exists x y rest rest', In (Some x :: rest) lines /\ In (Some y :: rest') lines /\ x <> y) ->
  lines <> [] -> N.of_nat (length lines) < 2 ^ 30 -> rand < 2 ^ 128 ->
  (forall m, (1 <= m <= Z.of_nat (length lines))%Z -> log2 m + log2 (fl_factor f) <= 26)%Q ->
  Forall (fun line => exists x rest, line = Some x :: rest /\ x < 2 ^ Z.to_N (fl_ld f)) lines ->
  exists prefixes levels o0 o1,
    main_prefixes f lines true = Ok prefixes /\ good_levels 26 (fl_ld f) levels /\
    experiment_main rnd log2 fuel aes F f lines true rand seed0 seed1 false = Some (Ok o0) /\
    experiment_main rnd log2 fuel aes F f lines true rand seed0 seed1 true = Some (Ok o1) /\
    length o0 = length levels /\ length o1 = length levels /\
    forall i, (i < length levels)%nat ->
      reconstruct (TInt 32) (alpha_of f rand / 2 ^ Z.to_N (fl_ld f - nth i levels 0%Z)) (VNum 1)
        (points prefixes levels i) (nth i o0 []) (nth i o1 []) /\
      forall x rest, In (Some x :: rest) lines ->
        In (x / 2 ^ Z.to_N (fl_ld f - nth i levels 0%Z)) (points prefixes levels i).
Proof.
  intros rnd log2 fuel aes F f lines rand seed0 seed1 HR HL HV Hin Hon Hlv Hf Hld Hfuel H4 Hne Hlines Hrand HB Hrange.
  assert (HP : exists prefixes, main_prefixes f lines true = Ok prefixes).
  { apply C62_accepted_partial; [auto|lia|]. unfold validate_flags in HV. bind_inv HV. bind_inv HV. bind_inv HV. bind_inv HV.
    apply check_ok in Hb, Hb0, Hb1, Hb2. rewrite Hlv. repeat split; auto; try lia.
    eapply Forall_impl; [|exact Hrange]. cbn. intros line (x & rest & -> & _). eauto. }
  destruct HP as (prefixes & HP).
  destruct (main_prefixes_spec f lines true prefixes Hin HP) as (P1 & P2 & P3 & P4 & P5).
  assert (Hn : (1 <= length (last prefixes []))%nat).
  { rewrite P3. destruct (P5 (Z.to_nat (fl_ld f)) ltac:(lia) ltac:(lia)) as (_ & _ & P6).
    destruct lines as [|line lines']; [congruence|]. inversion Hrange as [|l' ls (x & rest & -> & _) _]; subst.
    destruct (nth (Z.to_nat (fl_ld f)) prefixes []) as [|a l]; [|cbn [length]; lia].
    exfalso. apply (P6 (x / 2 ^ (Z.to_N (fl_ld f) - N.of_nat (Z.to_nat (fl_ld f))))). exists x. split; [|reflexivity].
    exists rest. left. reflexivity. }
  destruct (C63_returns_partial rnd log2 f lines prefixes 26 HR HL Hin HP Hne) as (levels & _ & HG & HF); auto; try lia.
  { change (inject_Z 26) with 26%Q. apply HB. lia. }
  assert (H4' : (4 <= fl_factor f)%Z \/ (2 <= length (last prefixes []))%nat).
  { destruct H4 as [H4|(x & y & rest & rest' & Hx & Hy & Hxy)]; [auto|right]. rewrite P3.
    destruct (P5 (Z.to_nat (fl_ld f)) ltac:(lia) ltac:(lia)) as (_ & _ & P6).
    assert (HI : forall z rest, In (Some z :: rest) lines -> In z (nth (Z.to_nat (fl_ld f)) prefixes [])).
    { intros z r Hz. apply P6. exists z. split; [exists r; exact Hz|]. replace (Z.to_N (fl_ld f) - N.of_nat (Z.to_nat (fl_ld f))) with 0 by lia.
      rewrite N.div_1_r. reflexivity. }
    apply HI in Hx, Hy. destruct (nth (Z.to_nat (fl_ld f)) prefixes []) as [|a [|b l]]; cbn [In length] in *; [tauto| |lia].
    exfalso. apply Hxy. destruct Hx as [<-|[]], Hy as [<-|[]]. reflexivity. }
  specialize (HG ltac:(lia) H4').
  destruct (C64_good_levels_partial aes F f lines prefixes levels rand seed0 seed1) as (o0 & o1 & E0 & E1 & N0 & N1 & HX); auto; try lia.
  { eapply Forall_impl; [|exact Hrange]. cbn. intros line (x & rest & -> & Hx) x' rest' E. congruence. }
  exists prefixes, levels, o0, o1. split; [auto|]. split; [auto|].
  assert (EM : main_levels rnd log2 fuel f prefixes = Some (Ok levels)).
  { unfold main_levels. rewrite Hlv, Hon. destruct (Nat.eqb_spec (length (last prefixes [])) 0); [lia|]. cbn [negb andb]. auto. }
  unfold experiment_main. rewrite HP, EM, E0, E1. auto.
Qed.
Print Assumptions C64_main_partial.
(** The full claim is false.  An input with one bucket and the default flags makes the
    program abort (the first level is 0, for which there are no prefixes); so do levels
    that do not increase; two levels without an input read outside of the vector of
    prefixes. *)
Definition with_levels (f : flags) (input : bool) (ls : list Z) : flags :=
  {| fl_input := input; fl_ld := fl_ld f; fl_iterations := fl_iterations f; fl_factor := fl_factor f;
     fl_only_nonzeros := fl_only_nonzeros f; fl_levels := map Some ls |}.
Theorem C64_main_refuted :
  (exists fuel aes F rand seed0 seed1, validate_flags xe_flags = Ok tt /\
     experiment_main rnd53 xe_log2 fuel aes F xe_flags (xe_lines [7]) true rand seed0 seed1 false = Some Crash) /\
  (exists f fuel aes F rand seed0 seed1, validate_flags f = Ok tt /\ f = with_levels xe_flags true [20; 10]%Z /\
     experiment_main rnd53 xe_log2 fuel aes F f (xe_lines [7]) true rand seed0 seed1 false = Some Crash) /\
  (exists f fuel aes F rand seed0 seed1, validate_flags f = Ok tt /\ f = with_levels default_flags false [10; 20]%Z /\
     experiment_main rnd53 xe_log2 fuel aes F f [] true rand seed0 seed1 false = Some UB).
Proof.
  split; [|split].
  - exists 25%nat, ex_aes, ex_F, 12345, 1, 2. split; [reflexivity|]. vm_compute. reflexivity.
  - exists (with_levels xe_flags true [20; 10]%Z), 25%nat, ex_aes, ex_F, 12345, 1, 2. split; [reflexivity|]. split; [reflexivity|]. vm_compute. reflexivity.
  - exists (with_levels default_flags false [10; 20]%Z), 25%nat, ex_aes, ex_F, 12345, 1, 2. split; [reflexivity|]. split; [reflexivity|]. vm_compute. reflexivity.
Qed.
Print Assumptions C64_main_refuted.
Example C64_nonvacuous :
  validate_flags xe_small = Ok tt /\ good_levels 26 4 [2; 4]%Z /\
  match experiment_main rnd53 xe_log2 4 ex_aes ex_F xe_small (xe_lines [12; 3; 13; 3]) true 12345 1 2 false,
        experiment_main rnd53 xe_log2 4 ex_aes ex_F xe_small (xe_lines [12; 3; 13; 3]) true 12345 1 2 true return Prop with
  | Some (Ok [a; b]), Some (Ok [a'; b']) =>
      alpha_of xe_small 12345 = 9 /\ zip2 (vadd (TInt 32)) a a' = map VNum [0; 0; 1; 0] /\
      zip2 (vadd (TInt 32)) b b' = map VNum [0; 0; 0; 0; 0; 0; 0; 0]
  | _, _ => False
  end.
Proof.
  split; [reflexivity|]. split.
  - split; [discriminate|repeat constructor|repeat constructor; lia|reflexivity|cbn; lia|].
    intros [|[|i]] Hi; cbn in *; lia.
  - vm_compute. auto.
Qed.

(** ** C65: batched evaluation *)

(** With --only_nonzeros and no levels the program runs through, and the outputs of the two
    keys are shares of 1 at alpha and of 0 at the other buckets. *)
Theorem C65_batched_partial : forall rnd log2 fuel aes F f lines prefixes rand seed0 seed1,
  fl_input f = true -> fl_only_nonzeros f = true -> fl_levels f = [] ->
  main_prefixes f lines true = Ok prefixes -> (fl_ld f <= 128)%Z -> rand < 2 ^ 128 ->
  Forall (fun line => forall x rest, line = Some x :: rest -> x < 2 ^ Z.to_N (fl_ld f)) lines ->
  exists o0 o1,
    experiment_main rnd log2 fuel aes F f lines true rand seed0 seed1 false = Some (Ok [o0]) /\
    experiment_main rnd log2 fuel aes F f lines true rand seed0 seed1 true = Some (Ok [o1]) /\
    reconstruct (TInt 32) (alpha_of f rand) (VNum 1) (last prefixes []) o0 o1 /\
    forall x, In x (last prefixes []) <-> exists rest, In (Some x :: rest) lines.
Proof.
  intros rnd log2 fuel aes F f lines prefixes rand seed0 seed1 Hin Hon Hlv HP Hld Hrand Hrange.
  destruct (batched_reconstructs aes F f lines prefixes rand seed0 seed1 Hin HP Hon) as (o0 & o1 & E0 & E1 & HR); auto.
  { intros x (rest & Hx). rewrite Forall_forall in Hrange. exact (Hrange _ Hx x rest eq_refl). }
  exists o0, o1. unfold experiment_main, main_levels. rewrite HP, Hlv, Hon. cbn [negb andb]. rewrite E0, E1.
  split; [auto|]. split; [auto|]. split; [exact HR|].
  destruct (main_prefixes_spec f lines true prefixes Hin HP) as (P1 & P2 & P3 & P4 & P5).
  assert (0 <= fl_ld f)%Z.
  { unfold main_prefixes in HP. bind_inv HP. destruct a. apply validate_ld. auto. }
  rewrite P3. destruct (P5 (Z.to_nat (fl_ld f)) ltac:(lia) ltac:(lia)) as (_ & _ & P6). intros x. rewrite P6.
  replace (Z.to_N (fl_ld f) - N.of_nat (Z.to_nat (fl_ld f))) with 0 by lia. split.
  - intros (y & Hy & ->). rewrite N.div_1_r. exact Hy.
  - intros Hx. exists x. rewrite N.div_1_r. auto.
Qed.
Print Assumptions C65_batched_partial.
(** The flag says that then all flags about levels are ignored.  They are not: two levels
    make the program abort. *)
Definition xe_batched (ls : list Z) : flags :=
  {| fl_input := true; fl_ld := 20; fl_iterations := 20; fl_factor := 2; fl_only_nonzeros := true; fl_levels := map Some ls |}.
Theorem C65_levels_ignored_refuted : exists f fuel aes F rand seed0 seed1,
  validate_flags f = Ok tt /\ f = xe_batched [10; 20]%Z /\
  (exists o, experiment_main rnd53 xe_log2 fuel aes F (xe_batched []) (xe_lines [7; 9]) true rand seed0 seed1 false = Some (Ok o)) /\
  experiment_main rnd53 xe_log2 fuel aes F f (xe_lines [7; 9]) true rand seed0 seed1 false = Some Crash.
Proof.
  exists (xe_batched [10; 20]%Z), 0%nat, ex_aes, ex_F, 12345, 1, 2. split; [reflexivity|]. split; [reflexivity|]. split.
  - eexists. vm_compute. reflexivity.
  - vm_compute. reflexivity.
Qed.
Print Assumptions C65_levels_ignored_refuted.
