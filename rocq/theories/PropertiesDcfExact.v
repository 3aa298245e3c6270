(** What the comparison function does where C24 and C25 are false: XorWrapper values, points
    out of the domain, alpha = 0, log_domain_size 129 and the security parameter.  See
    DcfExact.v for [compares_with], [zeros_on_path], [like_value] and [dcf_accepts]. *)
From Coq Require Import List NArith ZArith QArith Lia Bool ZifyBool ZifyNat ZifyN.
From Verif Require Import Base ListUtil ValueTypesModel ValueTypesSpec ValueTypesProofs
  ConvProofs BitsProofs TypeProofs DpfModel DpfTree DpfWf DpfGen DpfEval DpfPoint DpfCtx DpfApply
  DpfSpec DpfHist DpfReach DpfSafe DpfCreate DpfFacts DpfExamples DcfModel DcfSpec DcfProofs DcfGen DcfExact PropertiesValueTypes
  PropertiesRoom PropertiesDcf PropertiesPoints.
Import ListNotations.
Ltac Zify.zify_post_hook ::= Z.div_mod_to_equations.
Open Scope N_scope.

(** ** C24 for all value types and all points *)

(** The points are taken modulo the domain size.  The integer components of the sum are those
    of beta if the point is below alpha and zero otherwise.  The XorWrapper components are those
    of beta if the point has an odd number of zeros among the bits above which it agrees with
    alpha, and zero otherwise. *)
Theorem C24_single_exact : forall aes F p types c T g x,
  dcf_created F p types c -> (p_ld p <= 128)%Z -> dcf_has p T -> dcf_generated aes c g ->
  let x' := x mod 2 ^ Z.to_N (p_ld p) in
  exists r0 r1 y,
    dcf_evaluate aes c T (dp_key0 g) x = Ok r0 /\ dcf_evaluate aes c T (dp_key1 g) x = Ok r1 /\
    gsum T r0 r1 y /\
    compares_with (x' <? dp_alpha g)
      (Nat.odd (zeros_on_path (dp_alpha g) x' 0 (Z.to_nat (p_ld p)))) T (dp_beta g) y.
Proof.
  intros aes F p types c T [alpha beta k0 k1] x HD Hn HT [Ha (s0 & s1 & HG)] x'.
  cbn [dp_alpha dp_beta dp_key0 dp_key1] in *.
  assert (E : forall k, dcf_evaluate aes c T k x = dcf_evaluate aes c T k x').
  { intros k. unfold dcf_evaluate. rewrite (C46_dcf_reduces aes F p types c T [k] [x] [vzero T] HD). reflexivity. }
  rewrite !E. apply (dcf_shares_exact aes F p types c HD Hn alpha beta s0 s1 k0 k1 Ha HG T HT x').
  replace (N.of_nat (Z.to_nat (p_ld p))) with (Z.to_N (p_ld p)) by lia.
  apply N.mod_lt. apply N.pow_nonzero. discriminate.
Qed.
Print Assumptions C24_single_exact.

Theorem C24_batch_exact : forall aes F p types c T gs xs output,
  dcf_created F p types c -> (p_ld p <= 128)%Z -> dcf_has p T ->
  Forall (dcf_generated aes c) gs ->
  length xs = length gs -> length output = length gs ->
  N.of_nat (length gs) * Z.to_N (p_ld p) < 2 ^ 31 ->
  exists r0 r1,
    dcf_batch_evaluate aes c T (map dp_key0 gs) xs output = Ok r0 /\
    dcf_batch_evaluate aes c T (map dp_key1 gs) xs output = Ok r1 /\
    length r0 = length gs /\ length r1 = length gs /\
    forall i g x v0 v1, nth_error gs i = Some g -> nth_error xs i = Some x ->
      nth_error r0 i = Some v0 -> nth_error r1 i = Some v1 ->
      let x' := x mod 2 ^ Z.to_N (p_ld p) in
      exists y, gsum T v0 v1 y /\
        compares_with (x' <? dp_alpha g)
          (Nat.odd (zeros_on_path (dp_alpha g) x' 0 (Z.to_nat (p_ld p)))) T (dp_beta g) y.
Proof.
  intros aes F p types c T gs xs output HD Hn HT HG HL HLo HN.
  assert (HE : gs <> [] -> forall h, (h < Z.to_nat (p_ld p))%nat -> enough_bytes T (16 * blocks (dc_dpf c) h)).
  { intros Hne. destruct gs as [|g gs]; [congruence|]. inv HG. destruct H1 as (Ha & s0 & s1 & H).
    exact (dcf_enough aes F p types c HD Hn _ _ _ _ _ _ Ha H T HT). }
  set (R := fun x => x mod 2 ^ Z.to_N (p_ld p)).
  assert (HR128 : forall l, Forall (fun x => x < P128) (map R l)).
  { intros l. apply Forall_forall. intros x Hx. apply in_map_iff in Hx. destruct Hx as (z & <- & _). unfold R.
    eapply N.lt_le_trans; [apply N.mod_lt; apply N.pow_nonzero; discriminate|].
    change P128 with (2 ^ 128). apply N.pow_le_mono_r; [discriminate|]. clear - Hn. lia. }
  assert (HB : forall f : dcf_pair -> dkey, dcf_batch_evaluate aes c T (map f gs) xs output
             = mapM (fun gx : dcf_pair * N => dcf_evaluate aes c T (f (fst gx)) (R (snd gx))) (combine gs xs)).
  { intros f. rewrite (C46_dcf_reduces aes F p types c T _ _ _ HD). fold R. destruct gs as [|g gs].
    - destruct xs; [|discriminate]. destruct output; [|discriminate].
      rewrite (batch_valid_eq aes F p types c HD T HT Hn (map f []) []);
        solve [reflexivity | constructor | auto | intros Hc; exfalso; apply Hc; reflexivity].
    - rewrite (batch_is_single aes F p types c HD T HT Hn); rewrite ?map_length; auto.
      + clear. generalize (g :: gs). intros l. revert xs. induction l as [|a l IH]; intros [|x xs]; auto.
        cbn [map combine mapM fst snd]. rewrite IH. reflexivity.
      + replace (N.of_nat (Z.to_nat (p_ld p))) with (Z.to_N (p_ld p)) by (clear; lia). exact HN.
      + apply HE. discriminate. }
  rewrite !HB. clear HB HE HLo HN. revert xs HL. induction HG as [|g gs Hg HG IH]; intros [|x xs] HL; try discriminate.
  - exists [], []. cbn. repeat split; auto. intros [|i] g x v0 v1 H; discriminate.
  - destruct (IH xs) as (r0 & r1 & H0 & H1 & L0 & L1 & HI); auto.
    destruct (C24_single_exact aes F p types c T g (R x) HD Hn HT Hg) as (v0 & v1 & y & E0 & E1 & HS & HY).
    cbv zeta in HY. unfold R in HY at 1 2. rewrite N.mod_mod in HY by (apply N.pow_nonzero; discriminate).
    exists (v0 :: r0), (v1 :: r1). cbn [combine mapM fst snd]. rewrite E0, E1, H0, H1. cbn [bind length].
    split; auto. split; auto. split; [congruence|]. split; [congruence|].
    intros [|i] g' x' v0' v1' Hg' Hx' Hv0 Hv1; cbn [nth_error] in *.
    + inv Hg'. inv Hx'. inv Hv0. inv Hv1. exists y. split; assumption.
    + eapply HI; eauto.
Qed.
Print Assumptions C24_batch_exact.
(** alpha = 4 = 100b, beta = 77, XorWrapper<uint32_t>: 3 = 011b has one zero on the path and
    5 = 101b has one, 4 = 100b and 0 = 000b have two and one; 13 is taken for 5. *)
Example C24_exact_nonvacuous :
  dcf_created ex_F xx_p [TXor 32] xx_c /\ dcf_has xx_p (TXor 32) /\ dcf_generated ex_aes xx_c xx_g /\
  map (fun x => zeros_on_path 4 x 0 3) [0; 3; 4; 5; 6; 7] = [1; 1; 2; 1; 0; 0]%nat /\
  match dcf_batch_evaluate ex_aes xx_c (TXor 32) (repeat (dp_key0 xx_g) 7) [0; 3; 4; 5; 6; 7; 13] (repeat (VNum 0) 7),
        dcf_batch_evaluate ex_aes xx_c (TXor 32) (repeat (dp_key1 xx_g) 7) [0; 3; 4; 5; 6; 7; 13] (repeat (VNum 0) 7)
        return Prop with
  | Ok r0, Ok r1 => zip2 (vadd (TXor 32)) r0 r1
      = [VNum 77; VNum 77; VNum 0; VNum 77; VNum 0; VNum 0; VNum 77]
  | _, _ => False
  end.
Proof.
  split. { exists (xd_of (dcf_create ex_F xx_p)). split; [vm_compute; reflexivity|]. split; [repeat constructor|vm_compute; reflexivity]. }
  split; [split; [reflexivity|lden]|].
  split; [split; [reflexivity|]; exists (2 ^ 100 + 4), (2 ^ 90 + 4); vm_compute; reflexivity|].
  split; [vm_compute; reflexivity|]. vm_compute. reflexivity.
Qed.

(** ** C25 *)

(** Create accepts what the DPF accepts as a hierarchy of the log domain sizes 0 to
    log_domain_size - 1 with a security parameter of 0 at all levels. *)
Theorem C25_create_exact : forall F p d, (1 <= p_ld p)%Z ->
  dcf_create F p = Ok {| dc_param := p; dc_dpf := d |} <->
  create_incremental F
    (map (fun i => {| p_ld := Z.of_nat i; p_vt := Some (p_type p); p_sec := DFin 0 |})
         (seq 0 (Z.to_nat (p_ld p)))) = Ok d.
Proof.
  intros F p d Hp. unfold dcf_create. replace (p_ld p <? 1)%Z with false by lia. cbn [negb check bind].
  fold (dcf_dpf_parameters p). split; intros H.
  - bind_inv H. bind_inv H. inv H. assumption.
  - rewrite H. assert (HV : exists u, validate_parameters (dcf_dpf_parameters p) = Ok u).
    { unfold create_incremental, validator_create in H. bind_inv H. bind_inv Hb. eauto. }
    destruct HV as (u & ->). reflexivity.
Qed.
Print Assumptions C25_create_exact.
(** With log_domain_size 129, GenerateKeys shifts a 128-bit integer by 128. *)
Theorem C25_create_129 : forall aes F p types c, dcf_created F p types c -> p_ld p = 129%Z ->
  forall alpha beta seed0 seed1, dcf_generate_keys aes c alpha beta seed0 seed1 = UB.
Proof.
  intros aes F p types c HD Hp alpha beta seed0 seed1. unfold dcf_generate_keys.
  rewrite (proj1 (proj2 (dcf_created_facts F p types c HD))), Hp. reflexivity.
Qed.
Print Assumptions C25_create_129.
(** GenerateKeys accepts alpha in the domain if beta is a value of the type, or if alpha is 0
    and beta is built like one, and otherwise returns INVALID_ARGUMENT. *)
Theorem C25_keygen_exact : forall aes F p types c T alpha beta seed0 seed1,
  dcf_created F p types c -> (p_ld p <= 128)%Z -> dcf_registered p types ->
  Forall (roomy (dcf_dpf_parameters p) (dc_dpf c)) types -> dcf_has p T -> alpha < 2 ^ 128 ->
  (dcf_accepts p T alpha beta -> exists k0 k1, dcf_generate_keys aes c alpha beta seed0 seed1 = Ok (k0, k1)) /\
  (~ dcf_accepts p T alpha beta -> dcf_generate_keys aes c alpha beta seed0 seed1 = Err INVALID_ARGUMENT).
Proof. exact dcf_keygen_exact. Qed.
Print Assumptions C25_keygen_exact.
Example C25_exact_nonvacuous :
  dcf_created ex_F x8_p [] x8_c /\ dcf_registered x8_p [] /\ dcf_has x8_p (TInt 8) /\
  dcf_accepts x8_p (TInt 8) 0 (PVInteger (VI64 300)) /\ ~ dcf_accepts x8_p (TInt 8) 1 (PVInteger (VI64 300)) /\
  ~ dcf_accepts x8_p (TInt 8) 0 (PVXor (VI64 3)) /\
  is_ok (dcf_generate_keys ex_aes x8_c 0 (PVInteger (VI64 300)) 5 6) = true /\
  dcf_generate_keys ex_aes x8_c 1 (PVInteger (VI64 300)) 5 6 = Err INVALID_ARGUMENT /\
  dcf_generate_keys ex_aes x8_c 0 (PVXor (VI64 3)) 5 6 = Err INVALID_ARGUMENT /\
  dcf_created ex_F x129_p [] (xd_of (dcf_create ex_F x129_p)).
Proof.
  split; [exact x8_created|]. split; [exists (TInt 8); split; [cbn; tauto|reflexivity]|].
  split; [split; [reflexivity|lden]|].
  split; [split; [reflexivity|]; left; split; [reflexivity|constructor]|].
  split.
  { intros [_ [[H _]|[_ (v & H)]]]; [discriminate|]. inversion H as [? ? x He Hx| | |]; subst. cbn [encodes] in He. subst x.
    revert Hx. vm_compute. discriminate. }
  split.
  { intros [_ [[_ H]|[H _]]]; [inversion H|apply H; reflexivity]. }
  split; [vm_compute; reflexivity|]. split; [vm_compute; reflexivity|]. split; [vm_compute; reflexivity|].
  eexists. split; [vm_compute; reflexivity|]. split; [constructor|vm_compute; reflexivity].
Qed.

(** ** C26 for all value types *)

(** If some level lacks room for the value type, neither function returns a value: with C26_batch_is_single the
    batch and the single evaluations return the same values for all types. *)
Lemma dcf_batch_no_room : forall aes F p types c T keys points output,
  dcf_created F p types c -> dcf_has p T -> ~ roomy (dcf_dpf_parameters p) (dc_dpf c) T ->
  keys <> [] -> N.of_nat (length keys) < 2 ^ 31 -> Forall (fun x => x < 2 ^ 128) points ->
  no_value (dcf_batch_evaluate aes c T keys points output).
Proof.
  intros aes F p types c T keys points output HD HT HR HN Hlen HP.
  pose proof (dcf_created_facts F p types c HD) as (HC & Hpar & _). set (ps := dcf_dpf_parameters p) in *. set (d := dc_dpf c) in *.
  destruct (created_wf _ _ _ _ HC) as (W & _). pose proof (created_len _ _ _ _ HC) as HL.
  assert (HEx : exists k, (k < nlevels d)%nat /\ (16 * nth k (d_blocks d) 0 < bytes_consumed T)%nat).
  { assert (HX : forall n, (exists k, (k < n)%nat /\ (16 * nth k (d_blocks d) 0 < bytes_consumed T)%nat) \/
       forall k, (k < n)%nat -> (bytes_consumed T <= 16 * nth k (d_blocks d) 0)%nat).
    { clear. induction n as [|n [(k & H1 & H2)|IH]]; [right; lia|left; exists k; lia|].
      destruct (Nat.lt_ge_cases (16 * nth n (d_blocks d) 0)%nat (bytes_consumed T)) as [E|E]; [left; exists n; lia|].
      right. intros k Hk. destruct (Nat.eq_dec k n) as [->|]; [exact E|apply IH; lia]. }
    destruct (HX (nlevels d)) as [H|H]; [exact H|]. exfalso. apply HR. intros h Hh. apply H. rewrite HL. eapply level_has_lt; eauto. }
  destruct HEx as (k & Hk & Hroom).
  unfold dcf_batch_evaluate. apply no_value_bind. intros u1 _. apply no_value_bind. intros u2 _. cbv zeta.
  destruct (to_int32 (Z.of_nat (length keys)) <? 0)%Z; [exact I|].
  replace (to_int32 (Z.of_nat (length keys))) with (Z.of_nat (length keys)) by (unfold to_int32; lia).
  rewrite Nat2Z.id, firstn_all.
  assert (HTl : forall h, (h < nlevels d)%nat -> level_type d h T).
  { intros h Hh. apply (level_has_type F ps types d h T HC). rewrite HL in Hh. eapply dcf_level_has; eauto.
    clear - Hh. unfold ps, dcf_dpf_parameters in Hh. rewrite map_length, seq_length in Hh. exact Hh. }
  assert (Hen : ~ enough_bytes T (16 * blocks d k)).
  { intros HE. apply enough_bytes_consumed in HE; [|exact (proj1 HT)]. unfold blocks in HE. lia. }
  pose proof (apply_stops aes d W (res (Z * list cval)) T keys points (dcf_accumulate T (p_ld (dc_param c)) (Z.of_nat (length keys)) points)
    no_value 1 (Ok (0%Z, map (fun _ => vzero T) output)) k HTl Hk Hen HN HP) as HX.
  fold d. destruct (evaluate_and_apply _ _ _ _ _ _ _ _) as [s| | |]; cbn [bind]; try exact I.
  apply no_value_bind. intros a ->. exfalso. refine (HX _).
  right. intros s vs. unfold dcf_accumulate. destruct s as [[level outp]| | |]; cbn [fst snd]; auto; try (intros _; exact I).
  destruct (negb _); [intros _; exact I|]. destruct (bind _ _) as [s'| | |]; cbn [fst snd]; [discriminate|intros _; exact I..].
Qed.
Theorem C26_all_types : forall aes F p types c T keys points output r,
  dcf_created F p types c -> (p_ld p <= 128)%Z -> dcf_has p T ->
  length points = length keys -> length output = length keys -> keys <> [] ->
  Forall (fun x => x < 2 ^ 128) points -> N.of_nat (length keys) * Z.to_N (p_ld p) < 2 ^ 31 ->
  dcf_batch_evaluate aes c T keys points output = Ok r <->
  mapM (fun kx : dkey * N => dcf_evaluate aes c T (fst kx) (snd kx)) (combine keys points) = Ok r.
Proof.
  intros aes F p types c T keys points output r HD Hn HT HL Ho HN HP HK.
  pose proof (dcf_created_facts F p types c HD) as (HC & _ & H1).
  assert (HR : roomy (dcf_dpf_parameters p) (dc_dpf c) T \/ ~ roomy (dcf_dpf_parameters p) (dc_dpf c) T).
  { assert (HX : forall n, (forall h, (h < n)%nat -> level_has (dcf_dpf_parameters p) h T -> (bytes_consumed T <= 16 * nth h (d_blocks (dc_dpf c)) 0)%nat) \/
      exists h, level_has (dcf_dpf_parameters p) h T /\ ~ (bytes_consumed T <= 16 * nth h (d_blocks (dc_dpf c)) 0)%nat).
    { assert (Hlv : forall h, (h < length (dcf_dpf_parameters p))%nat -> level_has (dcf_dpf_parameters p) h T).
      { intros h Hh. eapply dcf_level_has; eauto. clear - Hh. unfold dcf_dpf_parameters in Hh. rewrite map_length, seq_length in Hh. exact Hh. }
      induction n as [|n [IH|IH]]; [left; lia| |right; exact IH].
      destruct (le_dec (bytes_consumed T) (16 * nth n (d_blocks (dc_dpf c)) 0)%nat) as [E|E].
      - left. intros h Hh Hh'. destruct (Nat.eq_dec h n) as [->|]; [exact E|apply IH; [lia|exact Hh']].
      - destruct (lt_dec n (length (dcf_dpf_parameters p))) as [El|El]; [right; exists n; auto|].
        left. intros h Hh Hh'. destruct (Nat.eq_dec h n) as [->|]; [|apply IH; [lia|exact Hh']]. pose proof (level_has_lt _ _ _ Hh'). lia. }
    destruct (HX (length (dcf_dpf_parameters p))) as [H|(h & Hh & HNr)].
    - left. intros h Hh. apply H; [eapply level_has_lt; eauto|exact Hh].
    - right. intros H. apply HNr, H, Hh. }
  destruct HR as [HR|HR].
  { rewrite (C26_batch_is_single aes F p types c T) by auto. reflexivity. }
  assert (Hlen : N.of_nat (length keys) < 2 ^ 31) by (change (2 ^ 31) with 2147483648 in *; nia).
  pose proof (dcf_batch_no_room aes F p types c T keys points output HD HT HR HN Hlen HP) as HX.
  split; intros H; exfalso.
  - rewrite H in HX. exact HX.
  - destruct keys as [|k keys]; [congruence|]. destruct points as [|x points]; [discriminate|]. cbn [combine mapM fst snd] in H.
    bind_inv H. unfold dcf_evaluate in Hb. bind_inv Hb.
    assert (HPx : Forall (fun x => x < 2 ^ 128) [x]) by (inversion HP; auto).
    pose proof (dcf_batch_no_room aes F p types c T [k] [x] [vzero T] HD HT HR ltac:(discriminate) ltac:(reflexivity) HPx) as HY.
    rewrite Hb0 in HY. exact HY.
Qed.
Print Assumptions C26_all_types.
(** A DCF whose value type lacks room (see C17): no evaluation returns a value. *)
Definition xn_p : param := {| p_ld := 2; p_vt := Some (to_value_type c17_bad); p_sec := DFin 40 |}.
Definition xn_c : dcf := Eval vm_compute in xd_of (dcf_create ex_F xn_p).
Example C26_all_types_nonvacuous :
  dcf_created ex_F xn_p [] xn_c /\ dcf_has xn_p c17_bad /\ ~ roomy (dcf_dpf_parameters xn_p) (dc_dpf xn_c) c17_bad.
Proof.
  split; [exists xn_c; split; [vm_compute; reflexivity|split; [constructor|reflexivity]]|]. split; [split; [reflexivity|lden]|].
  intros H. specialize (H 0%nat). assert (HX : (bytes_consumed c17_bad <= 16 * nth 0 (d_blocks (dc_dpf xn_c)) 0)%nat).
  - apply H. split; [reflexivity|]. eexists. split; [reflexivity|]. lden.
  - revert HX. vm_compute. lia.
Qed.
