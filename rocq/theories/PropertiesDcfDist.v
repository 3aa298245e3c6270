(** C82: the distribution of a whole key of the comparison function, IntModN included. *)
From Coq Require Import List NArith ZArith QArith Lia Bool ZifyBool ZifyNat ZifyN.
From Verif Require Import Base ListUtil ValueTypesModel ValueTypesSpec ValueTypesProofs TypeProofs DpfModel DpfTree DpfWf DpfSpec DpfFacts DpfCreate DpfExamples
  SampleSpec SampleProofs DpfPrivacySpec DpfPrivacy DpfHide DpfBiject CorrectionSpec KeyDistSpec KeyDistProofs KeyDist PropertiesPrivacy DcfModel DcfSpec DcfProofs DcfGen PropertiesDcf
  PropertiesFssPrivacy PropertiesKeyDist FloatModel FloatSpec FloatProofs FloatLevel PropertiesFloat.
Import ListNotations.
Open Scope N_scope.

Lemma sumN_repeat : forall (c : N) (l : list nat), sumN (map (fun _ => c) l) = N.of_nat (length l) * c.
Proof. intros c l. induction l as [|x l IH]; [reflexivity|]. cbn [map sumN fold_right length]. unfold sumN in IH. rewrite IH. lia. Qed.

(** * C82 *)

(** As C79, for the comparison function.  All levels have the value type [T], so the bias is that of [T] times the number of levels. *)
Theorem C82_dcf_key : forall F p types c T, dcf_created F p types c -> (p_ld p <= 128)%Z -> dcf_has p T ->
  let ps := dcf_dpf_parameters p in
  let d := dc_dpf c in
  forall (f : bool) aes key (seeds : nat -> N),
  key_shape ps d (if f then 1 else 0)%Z key ->
  (forall i, (0 < i <= d_levels d - 1)%nat -> N.even (seeds i) = true) ->
  NoDup (seed_uses d seeds) ->
  let s0 := if f then seeds 0%nat else key_seed key in
  let s1 := if f then key_seed key else seeds 0%nat in
  let fixed aes1 ks alpha := same_tree (key_of f ks) key /\
    (forall i, (i <= d_levels d - 1)%nat -> fst (path_node aes1 (last_ld ps) (key_of (negb f) ks) (alpha / 2) i) = seeds i) /\
    agree_off (seed_uses d seeds) aes aes1 in
  let expansions aes1 := map (fun h => expansion aes1 (nth h (d_blocks d) 0%nat) (seeds (nth h (d_h2t d) 0%nat)))
                             (seq 0 (length ps)) in
  exists cipher : N -> list bytes -> N -> N -> N,
  (forall alpha beta, dcf_accepted c alpha beta -> disjoint (path_uses aes ps d key (alpha / 2)) (seed_uses d seeds) ->
     (forall w, In w (contents d) -> exists ks,
        dcf_generate_keys (cipher alpha w) c alpha beta s0 s1 = Ok ks /\ fixed (cipher alpha w) ks alpha /\
        expansions (cipher alpha w) = w) /\
     (forall aes1 ks, on_blocks aes1 -> dcf_generate_keys aes1 c alpha beta s0 s1 = Ok ks -> fixed aes1 ks alpha ->
        In (expansions aes1) (contents d) /\ forall k x, aes1 k x = cipher alpha (expansions aes1) k x)) /\
  forall alpha beta alpha' beta' (adversary : dkey -> oracle_program),
  dcf_accepted c alpha beta -> dcf_accepted c alpha' beta' ->
  disjoint (path_uses aes ps d key (alpha / 2)) (seed_uses d seeds) -> disjoint (path_uses aes ps d key (alpha' / 2)) (seed_uses d seeds) ->
  (forall k, same_tree k key -> disjoint (asked aes (adversary k)) (seed_uses d seeds)) ->
  let outputs a b :=
    count (fun w => passes f (fun k => run_program (cipher a w) (adversary k)) (dcf_generate_keys (cipher a w) c a b s0 s1)) (contents d) in
  2 ^ 129 * dist (outputs alpha beta) (outputs alpha' beta') <=
  Z.to_N (p_ld p) * type_bias T * N.of_nat (length (contents d)).
Proof.
  intros F p types c T HD Hn HT ps d f aes key seeds HS Hsb HND s0 s1 fixed expansions.
  destruct (C79_key F ps types d (proj1 (dcf_created_facts F p types c HD)) f aes key seeds HS Hsb HND) as (cipher & HA & HB).
  exists (fun alpha => cipher (alpha / 2)). split.
  - intros alpha beta Hacc HDis.
    destruct (HA (alpha / 2) _ (dcf_accepted_dpf F p types c HD Hn _ _ Hacc) HDis) as [HA1 HA2]. split.
    + intros w Hw. destruct (HA1 w Hw) as (ks & K1 & K2 & K3 & _). exists ks. rewrite (dcf_keys_eq F p types c HD Hn).
      split; [exact K1|]. split; [exact K2|exact K3].
    + intros aes1 ks HBl HG Hfix. rewrite (dcf_keys_eq F p types c HD Hn) in HG. exact (HA2 aes1 ks HBl HG Hfix).
  - intros alpha beta alpha' beta' adversary Hacc Hacc' HDis HDis' HQ outputs.
    assert (Hcost : forall h U, level_has ps h U -> type_bias U <= type_bias T).
    { intros h U HU. apply dcf_has_level in HU. destruct HT as [_ HT], HU as [_ HU].
      assert (U = T) as -> by exact (denotes_fun _ _ _ HU HT). apply N.le_refl. }
    pose proof (HB (fun _ => type_bias T) Hcost (alpha / 2) (values_of p alpha beta) (alpha' / 2) (values_of p alpha' beta') adversary
      (dcf_accepted_dpf F p types c HD Hn _ _ Hacc) (dcf_accepted_dpf F p types c HD Hn _ _ Hacc') HDis HDis' HQ) as HX.
    cbv zeta in HX. rewrite sumN_repeat, seq_length in HX.
    assert (HL : N.of_nat (length ps) = Z.to_N (p_ld p)).
    { unfold ps, dcf_dpf_parameters. rewrite map_length, seq_length. lia. }
    rewrite HL in HX. unfold outputs.
    rewrite (count_ext _ _ (fun w => passes f (fun k => run_program (cipher (alpha / 2) w) (adversary k)) (generate_keys (cipher (alpha / 2) w) d (alpha / 2) (values_of p alpha beta) s0 s1)))
      by (intros w _; rewrite (dcf_keys_eq F p types c HD Hn); reflexivity).
    rewrite (count_ext _ (fun w => passes f _ (dcf_generate_keys _ c alpha' beta' s0 s1)) (fun w => passes f (fun k => run_program (cipher (alpha' / 2) w) (adversary k)) (generate_keys (cipher (alpha' / 2) w) d (alpha' / 2) (values_of p alpha' beta') s0 s1)))
      by (intros w _; rewrite (dcf_keys_eq F p types c HD Hn); reflexivity).
    exact HX.
Qed.
Print Assumptions C82_dcf_key.

(** The security_parameter of the DCF's parameters is not passed on to the DPF (distributed_comparison_function.cc:57-63), which therefore uses 40 + i for
    level i.  As the biases of all levels are the same, the sum is at most about 2^-39 for every domain size, if the IntModN elements come last. *)
Theorem C82_dcf_level : forall O, accurate O -> forall p types c T w m n, dcf_created (fops_of O) p types c -> (p_ld p <= 128)%Z -> dcf_has p T ->
  mods_last w m n T -> at_most_2_pow_minus (Z.to_N (p_ld p) * type_bias T) (2 ^ 129) 39 slack.
Proof.
  intros O HO p types c T w m n HD Hn HT HM.
  destruct (dcf_created_facts _ p types c HD) as (HC & _ & H1). set (k := (Z.to_nat (p_ld p) - 1)%nat).
  assert (Hk : nth_error (dcf_dpf_parameters p) k = Some {| p_ld := Z.of_nat k; p_vt := Some (p_type p); p_sec := DFin 0 |}).
  { unfold dcf_dpf_parameters. rewrite nth_error_map, nth_error_nth' with (d := 0%nat) by (rewrite seq_length; lia).
    rewrite seq_nth by lia. reflexivity. }
  assert (HL : level_has (dcf_dpf_parameters p) k T).
  { destruct HT as [Hok HDn]. split; [exact Hok|]. eexists. split; [exact Hk|]. exact HDn. }
  destruct (C80_key O HO _ _ _ HC k T w m n _ HL HM Hk) as (q & (s & Hs & Hq) & _ & HB). cbn [p_sec p_ld] in Hs, Hq.
  injection Hs as <-. change (Qeq_bool 0 0) with true in Hq. cbv iota in Hq. subst q.
  unfold at_most_2_pow_minus in *. cbn [inject_Z Qnum Qden] in HB |- *. change (Qden (1 + slack)) with (Qden slack) in HB.
  change (Z.to_N (Qnum (1 + slack))) with (Npos (Qden slack) + 1) in HB. change (Z.to_N (Qnum slack)) with 1.
  change (Z.to_N 39) with 39. set (D := Npos (Qden slack)) in *. clearbody D. set (N := Z.to_N (p_ld p)). set (X := 2 ^ 129) in *. clearbody X.
  rewrite !N.mul_1_l, ?N.mul_1_r in *. replace (Z.to_N (40 + Z.of_nat k)) with (39 + N) in HB by lia.
  rewrite N.mul_add_distr_r, !N.pow_add_r in HB. rewrite N.pow_mul_l.
  assert (HN : N ^ D * 2 ^ D <= 2 ^ (N * D)).
  { rewrite <- N.pow_mul_l, N.pow_mul_r. apply N.pow_le_mono_l. assert (H1N : 1 <= N) by lia. clearbody N. clear - H1N.
    induction N as [|N IH] using N.peano_ind; [lia|]. rewrite N.pow_succ_r'. destruct (N.eq_dec N 0) as [->|]; [cbn; lia|]. specialize (IH ltac:(lia)). lia. }
  assert (HP : 0 < 2 ^ D) by (apply N.neq_0_lt_0, N.pow_nonzero; discriminate).
  set (t := type_bias T ^ D) in *. set (x := X ^ D) in *. set (a := 2 ^ (39 * D)) in *. set (b := 2 ^ (N * D)) in *. set (e := 2 ^ D) in *. set (g := N ^ D) in *.
  clearbody t x a b e g. apply N.mul_le_mono_pos_r with e; [exact HP|].
  apply N.le_trans with (t * (a * b)); [|nia].
  replace (g * t * a * e) with (t * a * (g * e)) by lia. rewrite (N.mul_assoc t a b). apply N.mul_le_mono_l. exact HN.
Qed.
Print Assumptions C82_dcf_level.

(** * The hypotheses can be met *)

(** A DCF with a tuple that contains an IntModN; party 0's key for 19; the alphas 19 and 4. *)
Example C82_nonvacuous :
  dcf_created ex_F xd_p [ex_tuple] xd_c /\ (p_ld xd_p <= 128)%Z /\ dcf_has xd_p ex_tuple /\ type_bias ex_tuple = 1000003 /\
  (forall i, (0 < i <= d_levels (dc_dpf xd_c) - 1)%nat -> N.even (xv_seeds i) = true) /\ NoDup (seed_uses (dc_dpf xd_c) xv_seeds) /\
  match dcf_generate_keys ex_aes xd_c 19 (xd_beta 1234 999999) (2 ^ 100) (2 ^ 90) with
  | Ok ks => key_shape (dcf_dpf_parameters xd_p) (dc_dpf xd_c) 0 (fst ks) /\
      dcf_accepted xd_c 19 (xd_beta 1234 999999) /\ dcf_accepted xd_c 4 (xd_beta 7 8) /\
      (forall alpha, alpha = 19 \/ alpha = 4 ->
         disjoint (path_uses ex_aes (dcf_dpf_parameters xd_p) (dc_dpf xd_c) (fst ks) (alpha / 2)) (seed_uses (dc_dpf xd_c) xv_seeds)) /\
      forall k, same_tree k (fst ks) -> disjoint (asked ex_aes (xs_adversary k)) (seed_uses (dc_dpf xd_c) xv_seeds)
  | _ => False
  end.
Proof.
  split; [exact xd_created|]. split; [discriminate|].
  split; [split; [reflexivity|apply (to_value_type_denotes ex_tuple); reflexivity]|]. split; [vm_compute; reflexivity|].
  split. { intros i _. unfold xv_seeds. rewrite N.even_add, N.even_mul. reflexivity. }
  split; [apply nodupb_ok; vm_compute; reflexivity|].
  destruct (dcf_generate_keys ex_aes xd_c 19 (xd_beta 1234 999999) (2 ^ 100) (2 ^ 90)) as [ks| | |] eqn:E.
  2-4: vm_compute in E; discriminate.
  split.
  { destruct ks as [k0 k1]. refine (proj1 (C51_shape _ _ _ _ xd_created _ _ _ _ _ _ _ _ _ E)); [discriminate|reflexivity]. }
  split; [split; [reflexivity|]; exists ex_aes, (2 ^ 100), (2 ^ 90), ks; exact E|].
  split; [split; [reflexivity|]; exists ex_aes, 1, 2; eexists; vm_compute; reflexivity|].
  vm_compute in E. injection E as <-. split.
  - intros alpha [->| ->]; apply disjointb_ok; vm_compute; reflexivity.
  - intros k (Hk & _). unfold xs_adversary, key_seed. rewrite Hk. apply disjointb_ok. vm_compute. reflexivity.
Qed.

(** A domain of five bits, with the type of C80. *)
Definition xfl_p : param := {| p_ld := 5; p_vt := Some (to_value_type xfl_T); p_sec := DFin 100 |}.
Example C82_level_nonvacuous : exists c, dcf_created (fops_of fine_ops) xfl_p [xfl_T] c /\ dcf_has xfl_p xfl_T /\ mods_last 64 1000003 2 xfl_T.
Proof.
  assert (HC : exists d0, create_incremental (fops_of fine_ops) (dcf_dpf_parameters xfl_p) = Ok d0).
  { apply create_accepts.
    - apply validate_parameters_iff. reflexivity.
    - apply Forall_forall. intros p Hp. unfold dcf_dpf_parameters in Hp. apply in_map_iff in Hp. destruct Hp as (i & <- & Hi). apply in_seq in Hi.
      split; [reflexivity|]. exists xfl_T. split; [reflexivity|]. split; [apply (to_value_type_denotes xfl_T); reflexivity|]. right.
      split; [exact xfl_uniform|]. split; apply xfl_secure.
      + split; discriminate.
      + cbn [p_ld with_default_sec dbl_is_zero p_sec Qeq_bool default_sec]. change (Z.to_nat (p_ld xfl_p)) with 5%nat in Hi.
        unfold Qle. cbn. lia. }
  destruct HC as (d0 & HC). exists (fold_right dcf_register {| dc_param := xfl_p; dc_dpf := d0 |} [xfl_T]). split; [|split].
  - exists {| dc_param := xfl_p; dc_dpf := d0 |}. split; [|split; [repeat constructor|reflexivity]].
    unfold dcf_create. rewrite HC. reflexivity.
  - split; [reflexivity|apply (to_value_type_denotes xfl_T); reflexivity].
  - apply (ml_tup 64 1000003 [TInt 32] 1). repeat constructor.
Qed.
