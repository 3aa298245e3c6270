(** C51: what a single key of the comparison function reveals.  C52: the same for the multiple
    interval containment gate. *)
From Coq Require Import List NArith ZArith QArith Lia Bool ZifyBool ZifyNat ZifyN.
From Verif Require Import Base ListUtil ValueTypesModel ValueTypesSpec ValueTypesProofs TypeProofs DpfModel DpfTree DpfWf DpfSpec DpfFacts DpfExamples
  DpfPrivacySpec DpfPrivacy DpfHide DpfBiject PropertiesPrivacy DcfModel DcfSpec DcfProofs DcfGen PropertiesDcf MicProofs PropertiesMic ConvProofs.
Import ListNotations.
Ltac Zify.zify_post_hook ::= Z.div_mod_to_equations.
Open Scope N_scope.

(** * C51: the distributed comparison function *)

(** GenerateKeys of [c] accepts these arguments. *)
Definition dcf_accepted (c : dcf) (alpha : N) (beta : pvalue) : Prop :=
  alpha < 2 ^ 128 /\ exists aes s0 s1 ks, dcf_generate_keys aes c alpha beta s0 s1 = Ok ks.

Section Dcf.
Variables (F : fops) (p : param) (types : list cty) (c : dcf).
Hypothesis HD : dcf_created F p types c.
Hypothesis Hn : (p_ld p <= 128)%Z.
Definition values_of (alpha : N) (beta : pvalue) : list pvalue :=
  let n := Z.to_nat (p_ld p) in
  map (fun i => if N.testbit alpha (N.of_nat (n - i - 1)) then beta else set_to_zero beta) (seq 0 n).
Lemma dcf_keys_eq : forall aes alpha beta s0 s1,
  dcf_generate_keys aes c alpha beta s0 s1 = generate_keys aes (dc_dpf c) (alpha / 2) (values_of alpha beta) s0 s1.
Proof using HD Hn.
  intros aes alpha beta s0 s1. unfold dcf_generate_keys. rewrite (proj1 (proj2 (dcf_created_facts F p types c HD))).
  rewrite (dcf_values_ok p Hn). cbn [bind]. rewrite N.shiftr_div_pow2. reflexivity.
Qed.
Lemma half_lt : forall alpha, alpha < 2 ^ 128 -> alpha / 2 < 2 ^ 128.
Proof using. clear. intros alpha H. change (2 ^ 128) with 340282366920938463463374607431768211456 in *. lia. Qed.
Lemma dcf_accepted_dpf : forall alpha beta, dcf_accepted c alpha beta -> accepted (dc_dpf c) (alpha / 2) (values_of alpha beta).
Proof using HD Hn.
  intros alpha beta [Ha (aes & s0 & s1 & ks & H)]. split; [apply half_lt; auto|]. rewrite dcf_keys_eq in H. eauto.
Qed.
End Dcf.

(** The shape of the keys depends on the parameters only. *)
Theorem C51_shape : forall F p types c, dcf_created F p types c -> (p_ld p <= 128)%Z ->
  forall aes alpha beta s0 s1 k0 k1, alpha < 2 ^ 128 -> dcf_generate_keys aes c alpha beta s0 s1 = Ok (k0, k1) ->
  key_shape (dcf_dpf_parameters p) (dc_dpf c) 0 k0 /\ key_shape (dcf_dpf_parameters p) (dc_dpf c) 1 k1.
Proof.
  intros F p types c HD Hn aes alpha beta s0 s1 k0 k1 Ha HG. rewrite (dcf_keys_eq F p types c HD Hn) in HG.
  exact (C47_shape F _ types _ (proj1 (dcf_created_facts F p types c HD)) aes _ _ s0 s1 k0 k1 (half_lt _ Ha) HG).
Qed.
Print Assumptions C51_shape.

(** The same pair of keys is generated from the same seeds for any other accepted alpha' and
    beta', under a block cipher that differs only at the blocks that the other party encrypts
    along the path of alpha / 2. *)
Theorem C51_hides : forall F p types c, dcf_created F p types c -> (p_ld p <= 128)%Z ->
  let ps := dcf_dpf_parameters p in
  forall (f : bool) aes alpha beta s0 s1 ks alpha' beta', alpha < 2 ^ 128 ->
  dcf_generate_keys aes c alpha beta s0 s1 = Ok ks -> dcf_accepted c alpha' beta' ->
  apart aes ps (dc_dpf c) f ks (alpha / 2) (alpha' / 2) ->
  let uses := path_uses aes ps (dc_dpf c) (key_of (negb f) ks) (alpha / 2) in
  exists aes1, dcf_generate_keys aes1 c alpha' beta' s0 s1 = Ok ks /\
    path_uses aes1 ps (dc_dpf c) (key_of (negb f) ks) (alpha' / 2) = uses /\ agree_off uses aes aes1 /\
    (on_blocks aes -> s0 < 2 ^ 128 -> s1 < 2 ^ 128 -> on_blocks aes1) /\
    forall adversary : dkey -> oracle_program, disjoint (asked aes (adversary (key_of f ks))) uses ->
      run_program aes1 (adversary (key_of f ks)) = run_program aes (adversary (key_of f ks)) /\
      asked aes1 (adversary (key_of f ks)) = asked aes (adversary (key_of f ks)).
Proof.
  intros F p types c HD Hn ps f aes alpha beta s0 s1 ks alpha' beta' Ha HG Hacc Hap uses.
  rewrite (dcf_keys_eq F p types c HD Hn) in HG.
  destruct (C48_hides F ps types _ (proj1 (dcf_created_facts F p types c HD)) f aes _ _ s0 s1 ks _ _ (half_lt _ Ha) HG
              (dcf_accepted_dpf F p types c HD Hn _ _ Hacc) Hap) as (aes1 & H1 & H2 & H3 & H4 & H5).
  exists aes1. rewrite (dcf_keys_eq F p types c HD Hn). auto.
Qed.
Print Assumptions C51_hides.

(** A bijection on the ciphers, for types without IntModN. *)
Theorem C51_bijection : forall F p types c T, dcf_created F p types c -> (p_ld p <= 128)%Z -> dcf_has p T -> is_direct T = true ->
  let ps := dcf_dpf_parameters p in
  forall (f : bool) s0 s1, s0 < 2 ^ 128 -> s1 < 2 ^ 128 ->
  exists exchange : N -> pvalue -> N -> pvalue -> (N -> N -> N) -> (N -> N -> N),
  forall alpha beta alpha' beta' aes ks, alpha < 2 ^ 128 -> dcf_accepted c alpha' beta' -> on_blocks aes ->
    dcf_generate_keys aes c alpha beta s0 s1 = Ok ks -> apart aes ps (dc_dpf c) f ks (alpha / 2) (alpha' / 2) ->
    let aes1 := exchange alpha beta alpha' beta' aes in
    let uses := path_uses aes ps (dc_dpf c) (key_of (negb f) ks) (alpha / 2) in
    on_blocks aes1 /\ dcf_generate_keys aes1 c alpha' beta' s0 s1 = Ok ks /\
    apart aes1 ps (dc_dpf c) f ks (alpha' / 2) (alpha / 2) /\
    path_uses aes1 ps (dc_dpf c) (key_of (negb f) ks) (alpha' / 2) = uses /\ agree_off uses aes aes1 /\
    (forall k x, exchange alpha' beta' alpha beta aes1 k x = aes k x) /\
    forall adversary : dkey -> oracle_program, disjoint (asked aes (adversary (key_of f ks))) uses ->
      run_program aes1 (adversary (key_of f ks)) = run_program aes (adversary (key_of f ks)) /\
      asked aes1 (adversary (key_of f ks)) = asked aes (adversary (key_of f ks)).
Proof.
  intros F p types c T HD Hn HT Hdir ps f s0 s1 H0 H1.
  assert (HM : no_int_mod_n ps).
  { intros h U HU. apply dcf_has_level in HU. destruct HT as [_ HT], HU as [_ HU].
    assert (U = T) as -> by exact (denotes_fun _ _ _ HU HT). exact Hdir. }
  destruct (C49_bijection F ps types _ (proj1 (dcf_created_facts F p types c HD)) HM f s0 s1 H0 H1) as [exchange HX].
  exists (fun alpha beta alpha' beta' => exchange (alpha / 2) (values_of p alpha beta) (alpha' / 2) (values_of p alpha' beta')).
  intros alpha beta alpha' beta' aes ks Ha Hacc HB HG Hap aes1 uses. rewrite (dcf_keys_eq F p types c HD Hn) in *.
  exact (HX _ _ _ _ aes ks (half_lt _ Ha) (dcf_accepted_dpf F p types c HD Hn _ _ Hacc) HB HG Hap).
Qed.
Print Assumptions C51_bijection.

(** * C52: the multiple interval containment gate *)

Definition mic_key_of (f : bool) (ks : mic_key * mic_key) : mic_key := if f then snd ks else fst ks.
(** The alpha of the gate's DPF. *)
Definition gate_alpha (mp : mic_params) (r_in : N) : N := (group_size mp - 1 + r_in) mod group_size mp / 2.
Definition gate_param (mp : mic_params) : param :=
  {| p_ld := mp_log mp; p_vt := Some (to_value_type (TInt 128)); p_sec := DFin 0%Q |}.
Definition gate_dpf (m : mic) : dpf := register_value_type (TInt 128) (dc_dpf (m_dcf m)).

Section Mic.
Variables (F : fops) (mp : mic_params) (m : mic).
Hypothesis HM : mic_create F mp = Ok m.
Let G := group_size mp.
Let ivs := mp_intervals mp.

Lemma gate_created : dcf_created F (gate_param mp) [TInt 128] (dcf_register (TInt 128) (m_dcf m)).
Proof using HM.
  destruct (mic_facts F mp m HM) as (_ & (c0 & Hc0 & _ & Hc1) & _). exists c0. split; [exact Hc0|]. split; [repeat constructor|].
  cbn [fold_right] in *. rewrite Hc1. reflexivity.
Qed.

Lemma minus_share : forall z r, Z.of_N (w128 (z + P128 - w128 r mod G) mod G) = ((Z.of_N z - Z.of_N r) mod Z.of_N G)%Z.
Proof using HM.
  intros z r. unfold G, group_size. rewrite !(w128_mod_G F mp m HM). destruct (G_div F mp m HM) as (k & HP & HG1 & HG2).
  set (g := 2 ^ Z.to_N (mp_log mp)) in *.
  assert (Hr : r mod g < g) by (apply N.mod_lt; lia).
  assert (Hgp : g <= P128). { rewrite HP. assert (k <> 0) by (intros ->; discriminate). nia. }
  rewrite N2Z.inj_mod, N2Z.inj_sub by lia. rewrite N2Z.inj_add, N2Z.inj_mod, HP, N2Z.inj_mul.
  rewrite <- Zminus_mod_idemp_r, Zmod_mod, Zminus_mod_idemp_r.
  replace (Z.of_N z + Z.of_N k * Z.of_N g - Z.of_N r)%Z with (Z.of_N z - Z.of_N r + Z.of_N k * Z.of_N g)%Z by ring.
  apply Z_mod_plus_full.
Qed.

(** The random value for which the second share is the same, when the correction changes. *)
Definition shift_by (f : bool) (z z' : N) : N := if f then (z' + (2 ^ 128 - z)) mod 2 ^ 128 else 0.
Lemma shift_share : forall z z' r, z < 2 ^ 128 ->
  w128 (z' + P128 - w128 ((r + shift_by true z z') mod 2 ^ 128) mod G) mod G = w128 (z + P128 - w128 r mod G) mod G.
Proof using HM.
  intros z z' r Hz. apply N2Z.inj. rewrite !minus_share. destruct (G_div F mp m HM) as (k & HP & HG1 & _). fold G.
  unfold shift_by. change (2 ^ 128) with P128 in *. set (g := Z.of_N G).
  assert (HPZ : Z.of_N P128 = (Z.of_N k * g)%Z) by (unfold g, G, group_size; lia).
  assert (Hm : forall x, (Z.of_N (x mod P128) mod g = Z.of_N x mod g)%Z).
  { intros x. pose proof (N.div_mod x P128 ltac:(discriminate)) as E.
    replace (Z.of_N x) with (Z.of_N (x mod P128) + (Z.of_N (x / P128) * Z.of_N k) * g)%Z.
    - rewrite Z_mod_plus_full. reflexivity.
    - assert (EZ : Z.of_N x = (Z.of_N P128 * Z.of_N (x / P128) + Z.of_N (x mod P128))%Z) by (rewrite <- N2Z.inj_mul, <- N2Z.inj_add, <- E; reflexivity).
      rewrite EZ, HPZ. ring. }
  assert (Hs : forall a b x, (Z.of_N x mod g = b mod g)%Z -> ((a - Z.of_N x) mod g = (a - b) mod g)%Z).
  { intros a b x E. rewrite <- (Zminus_mod_idemp_r a (Z.of_N x)), E. apply Zminus_mod_idemp_r. }
  rewrite (Hs _ _ _ (Hm _)). rewrite (N2Z.inj_add r).
  replace (Z.of_N z' - (Z.of_N r + Z.of_N ((z' + (P128 - z)) mod P128)))%Z
    with ((Z.of_N z' - Z.of_N r) - Z.of_N ((z' + (P128 - z)) mod P128))%Z by ring.
  rewrite (Hs _ _ _ (Hm _)). rewrite N2Z.inj_add, N2Z.inj_sub by lia. rewrite HPZ.
  replace (Z.of_N z' - Z.of_N r - (Z.of_N z' + (Z.of_N k * g - Z.of_N z)))%Z with (Z.of_N z - Z.of_N r + (- Z.of_N k) * g)%Z by ring.
  apply Z_mod_plus_full.
Qed.
Lemma shift_back : forall f z z' r, z < 2 ^ 128 -> z' < 2 ^ 128 -> r < 2 ^ 128 ->
  ((r + shift_by f z z') mod 2 ^ 128 + shift_by f z' z) mod 2 ^ 128 = r.
Proof using.
  clear. intros f z z' r Hz Hz' Hr. unfold shift_by. destruct f.
  - rewrite N.add_mod_idemp_l, N.add_mod_idemp_r by discriminate.
    replace (r + (z' + (2 ^ 128 - z)) mod 2 ^ 128 + (z + (2 ^ 128 - z'))) with (r + (z + (2 ^ 128 - z')) + (z' + (2 ^ 128 - z)) mod 2 ^ 128) by ring.
    rewrite N.add_mod_idemp_r by discriminate.
    replace (r + (z + (2 ^ 128 - z')) + (z' + (2 ^ 128 - z))) with (r + 2 * 2 ^ 128) by lia.
    rewrite N.mod_add by discriminate. apply N.mod_small. exact Hr.
  - rewrite !N.add_0_r, N.mod_mod by discriminate. apply N.mod_small. exact Hr.
Qed.

(** The corrections of all intervals. *)
Definition z_at (r_in : N) (r_out : list N) (j : nat) : N :=
  match nth_error ivs j, nth_error r_out j with
  | Some i, Some r => mic_correction G r_in r i
  | _, _ => 0
  end.
Lemma z_lt : forall r_in r_out j, z_at r_in r_out j < 2 ^ 128.
Proof using HM.
  intros r_in r_out j. unfold z_at. destruct (nth_error ivs j); [|reflexivity]. destruct (nth_error r_out j); [|reflexivity].
  unfold mic_correction. apply (mod_G_lt F mp m HM).
Qed.

Definition gate_gamma (r_in : N) : N := w128 (G - 1 + r_in) mod G.
Lemma gate_alpha_eq : forall r_in, gate_alpha mp r_in = gate_gamma r_in / 2.
Proof using HM. intros r_in. unfold gate_alpha, gate_gamma, G, group_size. rewrite (w128_mod_G F mp m HM). reflexivity. Qed.
Lemma gamma_lt : forall r_in, gate_gamma r_in < 2 ^ 128.
Proof using HM. intros r_in. apply (mod_G_lt F mp m HM). Qed.
Lemma gamma_accepted : forall r_in, dcf_accepted (dcf_register (TInt 128) (m_dcf m)) (gate_gamma r_in) (to_value (TInt 128) (VNum 1)).
Proof using HM.
  intros r_in. split; [apply gamma_lt|]. destruct (mic_facts F mp m HM) as (_ & _ & Hlog & _).
  destruct (dcf_keygen_accepts (fun _ _ => 0) F (gate_param mp) [TInt 128] _ (gate_gamma r_in) (TInt 128)
                (to_value (TInt 128) (VNum 1)) (VNum 1) 0 0 gate_created) as (k0 & k1 & HK).
  - cbn [p_ld gate_param]. lia.
  - exists (TInt 128). split; [left; reflexivity|reflexivity].
  - repeat constructor. eapply shape_roomy; [exact (proj1 (dcf_created_facts _ _ _ _ gate_created))|reflexivity].
  - split; [reflexivity|]. apply to_value_type_denotes. reflexivity.
  - apply to_value_repr; reflexivity.
  - cbn [p_ld gate_param]. apply N.mod_lt. apply N.pow_nonzero. discriminate.
  - eauto 6.
Qed.
End Mic.

Lemma list_nth_eq : forall (A : Type) (l l' : list A), length l = length l' -> (forall j, nth_error l j = nth_error l' j) -> l = l'.
Proof.
  intros A. induction l as [|a l IH]; intros [|a' l'] HE HN; try discriminate; [reflexivity|].
  pose proof (HN 0%nat) as H0. injection H0 as ->. f_equal. apply IH; [injection HE as HE; exact HE|]. intros j. exact (HN (S j)).
Qed.

(** For any other masks, exchanging the block cipher as in C51 and shifting the gate's random
    values by constants (for the key of party 1) leaves the party's whole key unchanged.  Both
    maps are injective. *)
Theorem C52_bijection : forall F mp m, mic_create F mp = Ok m ->
  let ps := dcf_dpf_parameters (gate_param mp) in
  let G := group_size mp in
  forall (f : bool) s0 s1, s0 < 2 ^ 128 -> s1 < 2 ^ 128 ->
  exists (exchange : N -> N -> (N -> N -> N) -> (N -> N -> N)) (shift : N * list N -> N * list N -> nat -> N),
  forall r_in r_out r_in' r_out' aes rnd ks, on_blocks aes -> (forall i, rnd i < 2 ^ 128) ->
    mic_gen aes m r_in r_out s0 s1 rnd = Ok ks ->
    r_in' < G -> Forall (fun r => r < G) r_out' -> length r_out' = length (mp_intervals mp) ->
    let dks := (mk_dcf (fst ks), mk_dcf (snd ks)) in
    apart aes ps (gate_dpf m) f dks (gate_alpha mp r_in) (gate_alpha mp r_in') ->
    let uses := path_uses aes ps (gate_dpf m) (key_of (negb f) dks) (gate_alpha mp r_in) in
    let aes1 := exchange r_in r_in' aes in
    let rnd1 := fun i => (rnd i + shift (r_in, r_out) (r_in', r_out') i) mod 2 ^ 128 in
    exists ks1, mic_gen aes1 m r_in' r_out' s0 s1 rnd1 = Ok ks1 /\ mic_key_of f ks1 = mic_key_of f ks /\
      (mk_dcf (fst ks1), mk_dcf (snd ks1)) = dks /\
      on_blocks aes1 /\ apart aes1 ps (gate_dpf m) f dks (gate_alpha mp r_in') (gate_alpha mp r_in) /\
      path_uses aes1 ps (gate_dpf m) (key_of (negb f) dks) (gate_alpha mp r_in') = uses /\ agree_off uses aes aes1 /\
      (forall k x, exchange r_in' r_in aes1 k x = aes k x) /\
      (forall i, (rnd1 i + shift (r_in', r_out') (r_in, r_out) i) mod 2 ^ 128 = rnd i) /\
      forall adversary : mic_key -> oracle_program, disjoint (asked aes (adversary (mic_key_of f ks))) uses ->
        run_program aes1 (adversary (mic_key_of f ks)) = run_program aes (adversary (mic_key_of f ks)) /\
        asked aes1 (adversary (mic_key_of f ks)) = asked aes (adversary (mic_key_of f ks)).
Proof.
  intros F mp m HM ps G f s0 s1 H0 H1.
  destruct (C51_bijection F (gate_param mp) [TInt 128] _ (TInt 128) (gate_created F mp m HM)
              (mic_ld F mp m HM) (mic_has mp) eq_refl f s0 s1 H0 H1) as [exchange HX].
  set (one := to_value (TInt 128) (VNum 1)).
  exists (fun r r' => exchange (gate_gamma mp r) one (gate_gamma mp r') one),
         (fun a b j => shift_by f (z_at mp (fst a) (snd a) j) (z_at mp (fst b) (snd b) j)).
  intros r_in r_out r_in' r_out' aes rnd [ka kb] HB HR HG Hr1 Hr2 Hr3 dks Hap uses aes1 rnd1.
  destruct (mic_gen_facts aes F mp m HM r_in r_out s0 s1 rnd ka kb HG) as (L1 & L2 & L3 & HK & _ & _ & LS0 & LS1 & HS).
  unfold uses in *. cbn [fst snd] in dks, rnd1. rewrite !(gate_alpha_eq F mp m HM) in *.
  assert (HK' : dcf_generate_keys aes (dcf_register (TInt 128) (m_dcf m)) (gate_gamma mp r_in) one s0 s1 = Ok dks) by exact HK.
  destruct (HX (gate_gamma mp r_in) one (gate_gamma mp r_in') one aes dks (gamma_lt F mp m HM r_in) (gamma_accepted F mp m HM r_in') HB HK' Hap)
    as (E1 & E2 & E3 & E4 & E5 & E6 & _).
  fold aes1 in E1, E2, E3, E4, E5, E6.
  destruct (proj1 (C27_gen aes1 F mp m r_in' r_out' s0 s1 rnd1 HM) (conj Hr1 (conj Hr2 Hr3))) as (k0' & k1' & HG1).
  destruct (mic_gen_facts aes1 F mp m HM r_in' r_out' s0 s1 rnd1 k0' k1' HG1) as (M1 & M2 & M3 & MK & _ & _ & MS0 & MS1 & MS).
  assert (ED : (mk_dcf k0', mk_dcf k1') = dks).
  { assert (HX' : dcf_generate_keys aes1 (dcf_register (TInt 128) (m_dcf m)) (gate_gamma mp r_in') one s0 s1 = Ok (mk_dcf k0', mk_dcf k1')) by exact MK.
    rewrite E2 in HX'. congruence. }
  exists (k0', k1'). split; [exact HG1|].
  assert (EK : mic_key_of f (k0', k1') = mic_key_of f (ka, kb)).
  { injection ED as D0 D1. unfold mic_key_of. cbn [fst snd].
    assert (HN : forall j, (j < length (mp_intervals mp))%nat -> exists i r r', nth_error (mp_intervals mp) j = Some i /\
                   nth_error r_out j = Some r /\ nth_error r_out' j = Some r').
    { intros j Hj. destruct (nth_error (mp_intervals mp) j) as [i|] eqn:A1; [|apply nth_error_None in A1; lia].
      destruct (nth_error r_out j) as [r|] eqn:A2; [|apply nth_error_None in A2; lia].
      destruct (nth_error r_out' j) as [r'|] eqn:A3; [|apply nth_error_None in A3; lia]. eauto 6. }
    destruct f.
    - destruct kb as [db sb], k1' as [db' sb']. cbn [mk_dcf mk_shares] in *. subst db'. f_equal.
      apply list_nth_eq; [congruence|]. intros j. destruct (Nat.lt_ge_cases j (length (mp_intervals mp))) as [Hj|Hj].
      + destruct (HN j Hj) as (i & r & r' & A1 & A2 & A3).
        rewrite (proj2 (MS j i r' A1 A3)), (proj2 (HS j i r A1 A2)). do 2 f_equal. unfold rnd1, z_at. rewrite A1, A2, A3.
        apply (shift_share F mp m HM). unfold mic_correction. apply (mod_G_lt F mp m HM).
      + rewrite !(proj2 (nth_error_None _ _)) by lia. reflexivity.
    - destruct ka as [da sa], k0' as [da' sa']. cbn [mk_dcf mk_shares] in *. subst da'. f_equal.
      apply list_nth_eq; [congruence|]. intros j. destruct (Nat.lt_ge_cases j (length (mp_intervals mp))) as [Hj|Hj].
      + destruct (HN j Hj) as (i & r & r' & A1 & A2 & A3).
        rewrite (proj1 (MS j i r' A1 A3)), (proj1 (HS j i r A1 A2)). do 3 f_equal. unfold rnd1, shift_by.
        rewrite N.add_0_r. rewrite N.mod_small by apply HR. reflexivity.
      + rewrite !(proj2 (nth_error_None _ _)) by lia. reflexivity. }
  split; [exact EK|]. split; [exact ED|]. split; [exact E1|]. split; [exact E3|]. split; [exact E4|]. split; [exact E5|].
  split; [exact E6|]. split.
  - intros i. unfold rnd1. apply shift_back; [apply (z_lt F mp m HM)|apply (z_lt F mp m HM)|apply HR].
  - intros adversary HQ. eapply program_agree; eauto.
Qed.
Print Assumptions C52_bijection.

(** * The hypotheses can be met *)

Definition one_apartb (aes : N -> N -> N) ps d f ks alpha alpha' : bool :=
  let u := path_uses aes ps d (key_of (negb f) ks) alpha in
  nodupb u && disjointb (path_uses aes ps d (key_of f ks) alpha) u && disjointb (path_uses aes ps d (key_of f ks) alpha') u.
Lemma one_apartb_ok : forall aes ps d f ks alpha alpha', one_apartb aes ps d f ks alpha alpha' = true -> apart aes ps d f ks alpha alpha'.
Proof.
  intros aes ps d f ks alpha alpha' H. unfold one_apartb in H. rewrite !andb_true_iff in H. destruct H as [[H1 H2] H3].
  split; [apply nodupb_ok; exact H1|]. split; apply disjointb_ok; assumption.
Qed.

(** A comparison with 19 and one with 4. *)
Example C51_hides_nonvacuous :
  dcf_created ex_F xd_p [ex_tuple] xd_c /\
  match dcf_generate_keys ex_aes xd_c 19 (xd_beta 1234 999999) (2 ^ 100) (2 ^ 90) with
  | Ok ks => dcf_accepted xd_c 4 (xd_beta 7 8) /\
      forall f, apart ex_aes (dcf_dpf_parameters xd_p) (dc_dpf xd_c) f ks (19 / 2) (4 / 2)
  | _ => False
  end.
Proof.
  split; [exact xd_created|].
  set (r := dcf_generate_keys ex_aes xd_c 19 (xd_beta 1234 999999) (2 ^ 100) (2 ^ 90)).
  assert (HB : match r with Ok ks => forallb (fun f => one_apartb ex_aes (dcf_dpf_parameters xd_p) (dc_dpf xd_c) f ks (19 / 2) (4 / 2)) [false; true]
               | _ => false end = true) by (vm_compute; reflexivity).
  destruct r as [ks| | |]; try discriminate. split.
  - split; [reflexivity|]. exists ex_aes, 1, 2. eexists. vm_compute. reflexivity.
  - intros f. apply one_apartb_ok. cbn [forallb] in HB. rewrite !andb_true_iff in HB. destruct f; apply HB.
Qed.
Definition x8_beta (x : N) : pvalue := to_value (TInt 8) (VNum x).
Example C51_bijection_nonvacuous :
  dcf_created ex_F x8_p [] x8_c /\ dcf_has x8_p (TInt 8) /\ on_blocks ex_aes /\
  match dcf_generate_keys ex_aes x8_c 2 (x8_beta 200) (2 ^ 100) (2 ^ 90) with
  | Ok ks => dcf_accepted x8_c 1 (x8_beta 0) /\
      forall f, apart ex_aes (dcf_dpf_parameters x8_p) (dc_dpf x8_c) f ks (2 / 2) (1 / 2)
  | _ => False
  end.
Proof.
  split; [exact x8_created|]. split; [split; [reflexivity|apply (to_value_type_denotes (TInt 8)); reflexivity]|]. split; [exact ex_on_blocks|].
  set (r := dcf_generate_keys ex_aes x8_c 2 (x8_beta 200) (2 ^ 100) (2 ^ 90)).
  assert (HB : match r with Ok ks => forallb (fun f => one_apartb ex_aes (dcf_dpf_parameters x8_p) (dc_dpf x8_c) f ks (2 / 2) (1 / 2)) [false; true]
               | _ => false end = true) by (vm_compute; reflexivity).
  destruct r as [ks| | |]; try discriminate. split.
  - split; [reflexivity|]. exists ex_aes, 1, 2. eexists. vm_compute. reflexivity.
  - intros f. apply one_apartb_ok. cbn [forallb] in HB. rewrite !andb_true_iff in HB. destruct f; apply HB.
Qed.

(** The gate of PropertiesMic.v, with masks 13 and (1, 15, 7), and 2 and (0, 3, 9). *)
Example C52_nonvacuous :
  mic_create ex_F xm_mp = Ok xm_m /\ on_blocks ex_aes /\ (forall i, xm_rnd i < 2 ^ 128) /\
  2 < group_size xm_mp /\ Forall (fun r => r < group_size xm_mp) [0; 3; 9] /\ length [0; 3; 9] = length (mp_intervals xm_mp) /\
  match mic_gen ex_aes xm_m 13 [1; 15; 7] (2 ^ 100) (2 ^ 90) xm_rnd with
  | Ok ks => forall f, apart ex_aes (dcf_dpf_parameters (gate_param xm_mp)) (gate_dpf xm_m) f (mk_dcf (fst ks), mk_dcf (snd ks))
                         (gate_alpha xm_mp 13) (gate_alpha xm_mp 2)
  | _ => False
  end.
Proof.
  split; [exact xm_created|]. split; [exact ex_on_blocks|].
  split; [intros i; apply ex_aes_lt|]. split; [reflexivity|].
  split; [repeat constructor|]. split; [reflexivity|].
  set (r := mic_gen ex_aes xm_m 13 [1; 15; 7] (2 ^ 100) (2 ^ 90) xm_rnd).
  assert (HB : match r with Ok ks => forallb (fun f => one_apartb ex_aes (dcf_dpf_parameters (gate_param xm_mp)) (gate_dpf xm_m) f
                 (mk_dcf (fst ks), mk_dcf (snd ks)) (gate_alpha xm_mp 13) (gate_alpha xm_mp 2)) [false; true]
               | _ => false end = true) by (vm_compute; reflexivity).
  destruct r as [ks| | |]; try discriminate.
  intros f. apply one_apartb_ok. cbn [forallb] in HB. rewrite !andb_true_iff in HB. destruct f; apply HB.
Qed.
