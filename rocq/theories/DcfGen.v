(** Keys generated for the comparison function: the sums of the two parties' values. *)
From Coq Require Import List NArith ZArith QArith Lia Bool ZifyBool ZifyNat ZifyN.
From Verif Require Import Base ListUtil ValueTypesModel ValueTypesSpec ValueTypesProofs
  ConvProofs BitsProofs TypeProofs DpfModel DpfTree DpfWf DpfGen DpfEval DpfPoint DpfCtx DpfApply
  DpfSpec DpfHist DpfReach DpfSafe DpfCreate DpfFacts DcfModel DcfSpec DcfProofs.
Import ListNotations.
Ltac Zify.zify_post_hook ::= Z.div_mod_to_equations.
Open Scope N_scope.

Lemma set_to_zero_repr : forall T b v, cty_ok T = true -> no_xor T = true ->
  repr T (set_to_zero b) v -> v = vzero T.
Proof.
  induction T as [w|w m|w|ts IH] using cty_ind'; intros b v Hok Hx HR; try discriminate.
  - destruct b; cbn [set_to_zero] in HR; inversion HR; subst; cbn in *; subst; reflexivity.
  - destruct b; cbn [set_to_zero] in HR; inversion HR; subst; cbn in *; subst; reflexivity.
  - destruct b as [|?|els|?|?]; cbn [set_to_zero] in HR; inversion HR as [| | |ts' els' vs HRs]; subst. cbn [vzero]. f_equal.
    apply cty_ok_tup in Hok. destruct Hok as [_ Hok]. cbn [no_xor] in Hx.
    clear HR. revert els vs HRs.
    induction ts as [|t ts IHts]; intros els vs HRs.
    + inversion HRs. reflexivity.
    + destruct els as [|e els]; cbn [map] in HRs; inv HRs. cbn [map]. cbn [forallb] in Hx. apply andb_true_iff in Hx. destruct Hx.
      inv IH. inv Hok. f_equal; eauto.
Qed.

Lemma div_pow_step : forall a k, a / 2 ^ N.of_nat k = 2 * (a / 2 ^ N.of_nat (S k)) + N.b2n (N.testbit a (N.of_nat k)).
Proof.
  intros a k. replace (N.of_nat (S k)) with (N.of_nat k + 1) by lia.
  rewrite <- !N.shiftr_div_pow2, N.testbit_eqb. rewrite N.shiftr_div_pow2, N.shiftr_div_pow2, N.pow_add_r.
  change (2 ^ 1) with 2. rewrite <- N.div_div by (try apply N.pow_nonzero; lia).
  set (y := a / 2 ^ N.of_nat k). clearbody y. pose proof (N.div_mod y 2 ltac:(lia)) as H.
  pose proof (N.mod_lt y 2 ltac:(lia)). destruct (N.eqb_spec (y mod 2) 1); cbn [N.b2n]; lia.
Qed.

Section Gen.
Variable aes : N -> N -> N.
Variables (F : fops) (p : param) (types : list cty) (c : dcf).
Hypothesis HD : dcf_created F p types c.
Let d := dc_dpf c.
Let ps := dcf_dpf_parameters p.
Let n := Z.to_nat (p_ld p).
Let HC : created F ps types d := proj1 (dcf_created_facts F p types c HD).
Let W : wf d := proj1 (created_wf _ _ _ _ HC).
Hypothesis Hn128 : (p_ld p <= 128)%Z.

Lemma dcf_values_ok : forall alpha beta, dcf_values (p_ld p) alpha beta
  = Ok (map (fun i => if N.testbit alpha (N.of_nat (n - i - 1)) then beta else set_to_zero beta) (seq 0 n)).
Proof using Hn128.
  intros alpha beta. unfold dcf_values. fold n. apply mapM_map_ok. intros i Hi. apply in_seq in Hi.
  rewrite (bit_128_ok p Hn128) by (unfold n in *; clear - Hi Hn128; lia). reflexivity.
Qed.

Section Keys.
Variables (alpha : N) (beta : pvalue) (seed0 seed1 : N) (k0 k1 : dkey).
Hypothesis Ha : alpha < P128.
Hypothesis HG : dcf_generate_keys aes c alpha beta seed0 seed1 = Ok (k0, k1).
Let values := map (fun i => if N.testbit alpha (N.of_nat (n - i - 1)) then beta else set_to_zero beta) (seq 0 n).

Lemma dcf_gen_keys : generate_keys aes d (alpha / 2) values seed0 seed1 = Ok (k0, k1) /\ alpha / 2 < P128.
Proof.
  pose proof HG as H. unfold dcf_generate_keys in H. rewrite (proj1 (proj2 (dcf_created_facts F p types c HD))) in H.
  rewrite dcf_values_ok in H. cbn [bind] in H. rewrite N.shiftr_div_pow2 in H. change (2 ^ 1) with 2 in H.
  split; [exact H|]. clear - Ha. lia.
Qed.

Lemma dcf_key_oks : key_ok d k0 /\ key_ok d k1.
Proof. destruct dcf_gen_keys as [H1 H2]. eapply gen_keys_ok; eauto. Qed.

Lemma dcf_enough : forall T, dcf_has p T -> forall h, (h < n)%nat -> enough_bytes T (16 * blocks d h).
Proof.
  intros T HT h Hh. destruct dcf_gen_keys as [H1 H2].
  apply (gen_enough aes F ps types d HC (alpha / 2) values seed0 seed1 k0 k1 H2 H1).
  apply (dcf_level_has p T); auto.
Qed.

Lemma dcf_alpha_lt : alpha < 2 ^ N.of_nat n.
Proof.
  destruct dcf_gen_keys as [H1 H2].
  destruct (generate_keys_level aes d W _ _ _ _ _ _ H2 H1) as (_ & _ & _ & _ & _ & _ & _ & _ & _ & Hal & _).
  unfold d in Hal. rewrite (dcf_ld_last F p types c HD) in Hal. fold n in Hal.
  pose proof (dcf_n_pos F p types c HD) as Hp. fold n in Hp.
  replace (N.of_nat n) with (N.of_nat (n - 1) + 1) by lia. rewrite N.pow_add_r. change (2 ^ 1) with 2.
  clear - Hal. set (y := 2 ^ N.of_nat (n - 1)) in *. clearbody y. lia.
Qed.

Variable T : cty.
Hypothesis HT : dcf_has p T.
Hypothesis HX : no_xor T = true.

Definition prefix_sum (x : N) (h : nat) (s : cval) : Prop :=
  (x / 2 ^ N.of_nat (n - h) < alpha / 2 ^ N.of_nat (n - h) -> repr T beta s) /\
  (alpha / 2 ^ N.of_nat (n - h) <= x / 2 ^ N.of_nat (n - h) -> s = vzero T).

Lemma key_loops : forall x, x < 2 ^ N.of_nat n -> forall m h o0 o1, (h + m = n)%nat ->
  wt T o0 = true -> wt T o1 = true -> prefix_sum x h (vadd T o0 o1) ->
  exists r0 r1, key_loop aes p c T m h k0 x o0 = Ok r0 /\ key_loop aes p c T m h k1 x o1 = Ok r1 /\
    wt T r0 = true /\ wt T r1 = true /\ prefix_sum x n (vadd T r0 r1).
Proof.
  intros x Hx. destruct HT as [Hok HDn]. destruct dcf_gen_keys as [HGen Ha2].
  induction m as [|m IH]; intros h o0 o1 Hm W0 W1 HS.
  - cbn [key_loop]. replace h with n in HS by lia. eauto 8.
  - cbn [key_loop]. assert (Hh : (h < n)%nat) by (clear - Hm; lia).
    assert (HLT : level_type d h T).
    { eapply level_has_type; [exact HC|]. apply (dcf_level_has p T); auto. }
    destruct (share_sum aes d W (alpha / 2) values seed0 seed1 k0 k1 Ha2 HGen h T HLT)
      as (b & v & corrs & Hb & Hr & Wv & _ & H0 & H1 & HSum).
    unfold key_value. fold d. rewrite H0, H1. cbn [bind].
    set (px := level_point d 1 h x).
    assert (Epx : px = x / 2 ^ N.of_nat (n - h)).
    { unfold px, level_point. unfold d. rewrite (dcf_ld_last F p types c HD), (dcf_ld F p types c HD) by auto. fold n.
      rewrite N.shiftr_div_pow2. do 3 f_equal. clear - Hh. lia. }
    assert (Hpx : px < 2 ^ N.of_nat (ld d h)).
    { unfold d. rewrite (dcf_ld F p types c HD) by auto. rewrite Epx. apply N.div_lt_upper_bound; [apply N.pow_nonzero; discriminate|].
      rewrite <- N.pow_add_r. replace (N.of_nat (n - h) + N.of_nat h) with (N.of_nat n) by (clear - Hh; lia). exact Hx. }
    destruct (HSum px Hpx) as (WS0 & WS1 & ES). fold px.
    set (v0 := share aes d T k0 h corrs px) in *. set (v1 := share aes d T k1 h corrs px) in *.
    assert (Epa : N.shiftr (alpha / 2) (N.of_nat (ld_last d - ld d h)) = alpha / 2 ^ N.of_nat (n - h)).
    { unfold d. rewrite (dcf_ld_last F p types c HD), (dcf_ld F p types c HD) by auto. fold n.
      rewrite N.shiftr_div_pow2. replace (N.of_nat (n - h)) with (1 + N.of_nat (n - 1 - h)) by (clear - Hh; lia).
      rewrite N.pow_add_r. change (2 ^ 1) with 2. rewrite N.div_div by (try apply N.pow_nonzero; discriminate). reflexivity. }
    rewrite Epa, Epx in ES.
    assert (Eb : b = if N.testbit alpha (N.of_nat (n - h - 1)) then beta else set_to_zero beta).
    { unfold values in Hb. rewrite nth_error_map_some with (a := h) in Hb.
      - clear - Hb. congruence.
      - rewrite nth_error_seq by auto. reflexivity. }
    assert (HZ : N.testbit alpha (N.of_nat (n - h - 1)) = false -> v = vzero T).
    { intros E. rewrite E in Eb. subst b. eapply set_to_zero_repr; eauto. }
    unfold acc_value. change (Z.to_nat (p_ld p)) with n.
    pose proof (div_pow_step x (n - h - 1)) as Sx. pose proof (div_pow_step alpha (n - h - 1)) as Sa.
    replace (S (n - h - 1)) with (n - h)%nat in Sx, Sa by (clear - Hh; lia).
    assert (HR : forall o0' o1', wt T o0' = true -> wt T o1' = true ->
        prefix_sum x (S h) (vadd T o0' o1') ->
        exists r0 r1, key_loop aes p c T m (S h) k0 x o0' = Ok r0 /\ key_loop aes p c T m (S h) k1 x o1' = Ok r1 /\
          wt T r0 = true /\ wt T r1 = true /\ prefix_sum x n (vadd T r0 r1)).
    { intros. apply IH; auto. clear - Hm. lia. }
    unfold prefix_sum in HR at 1. replace (n - S h)%nat with (n - h - 1)%nat in HR by (clear; lia).
    rewrite Sx, Sa in HR. destruct HS as [HS1 HS2].
    set (qx := x / 2 ^ N.of_nat (n - h)) in *. set (qa := alpha / 2 ^ N.of_nat (n - h)) in *.
    destruct (N.testbit x (N.of_nat (n - h - 1))) eqn:Bx.
    + apply HR; auto. clear - HS1 HS2. cbn [N.b2n]. split; intros Hc.
      * apply HS1. destruct (N.testbit alpha _); cbn [N.b2n] in Hc; lia.
      * apply HS2. destruct (N.testbit alpha _); cbn [N.b2n] in Hc; lia.
    + apply HR; auto using vadd_wt.
      rewrite vadd_4 by auto. rewrite ES. clear HR IH HSum.
      pose proof (vadd_wt T o0 o1 Hok W0 W1) as Wo.
      destruct (N.eqb_spec qx qa) as [E|E].
      * rewrite HS2 by (clear - E; lia). rewrite vadd_0_l by auto.
        destruct (N.testbit alpha (N.of_nat (n - h - 1))) eqn:Bq; cbn [N.b2n].
        -- subst b. split; intros Hc; [exact Hr|]. exfalso. clear - Hc E. lia.
        -- split; intros Hc; [exfalso; clear - Hc E; lia|]. apply HZ. reflexivity.
      * rewrite vadd_0_r by auto. split; intros Hc.
        -- apply HS1. clear - Hc E. destruct (N.testbit alpha _); cbn [N.b2n] in Hc; lia.
        -- apply HS2. clear - Hc E. destruct (N.testbit alpha _); cbn [N.b2n] in Hc; lia.
Qed.

Theorem dcf_shares : forall x, x < 2 ^ N.of_nat n ->
  exists r0 r1 y, dcf_evaluate aes c T k0 x = Ok r0 /\ dcf_evaluate aes c T k1 x = Ok r1 /\
    wt T r0 = true /\ wt T r1 = true /\ gsum T r0 r1 y /\
    (x < alpha -> repr T beta y) /\ (alpha <= x -> y = vzero T).
Proof.
  intros x Hx. pose proof HT as [Hok HDn]. destruct dcf_key_oks as [HK0 HK1].
  assert (Hx' : x < P128).
  { eapply N.lt_le_trans; [exact Hx|]. change P128 with (2 ^ 128). apply N.pow_le_mono_r; [discriminate|]. unfold n. lia. }
  rewrite !(evaluate_valid_eq aes F p types c HD T HT Hn128) by (auto using dcf_enough).
  destruct (key_loops x Hx n 0 (vzero T) (vzero T)) as (r0 & r1 & H0 & H1 & W0 & W1 & HS); auto using vzero_wt.
  - rewrite vadd_0_r by auto using vzero_wt. split; intros Hc; auto. exfalso.
    rewrite Nat.sub_0_r in Hc. rewrite (N.div_small alpha) in Hc by apply dcf_alpha_lt. exact (N.nlt_0_r _ Hc).
  - exists r0, r1, (vadd T r0 r1). split; auto. split; auto. split; auto. split; auto. split; [apply vadd_gsum; auto|].
    destruct HS as [HS1 HS2]. replace (n - n)%nat with 0%nat in HS1, HS2 by (clear; lia).
    change (2 ^ N.of_nat 0) with 1 in *. rewrite !N.div_1_r in *. auto.
Qed.

End Keys.
End Gen.

(** ** Arguments of GenerateKeys *)

Section Args.
Variable aes : N -> N -> N.
Variables (F : fops) (p : param) (types : list cty) (c : dcf).
Hypothesis HD : dcf_created F p types c.
Hypothesis Hn128 : (p_ld p <= 128)%Z.
Hypothesis HReg : dcf_registered p types.
Hypothesis HSh : Forall (roomy (dcf_dpf_parameters p) (dc_dpf c)) types.
Let d := dc_dpf c.
Let ps := dcf_dpf_parameters p.
Let n := Z.to_nat (p_ld p).
Let HC : created F ps types d := proj1 (dcf_created_facts F p types c HD).

Lemma dcf_registered_ps : registered ps types.
Proof.
  destruct HReg as (T & HIn & Hvt). unfold registered, ps, dcf_dpf_parameters. apply Forall_forall. intros q Hq.
  apply in_map_iff in Hq. destruct Hq as (i & <- & _). exists T. split; auto. cbn [p_vt]. f_equal.
  unfold p_type. rewrite Hvt. reflexivity.
Qed.

Theorem dcf_keygen_rejects : forall alpha beta seed0 seed1, alpha < P128 ->
  2 ^ N.of_nat n <= alpha \/ (alpha <> 0 /\ forall T, dcf_has p T -> ~ exists v, repr T beta v) ->
  dcf_generate_keys aes c alpha beta seed0 seed1 = Err INVALID_ARGUMENT.
Proof.
  intros alpha beta seed0 seed1 Ha Hbad. unfold dcf_generate_keys.
  rewrite (proj1 (proj2 (dcf_created_facts F p types c HD))), (dcf_values_ok p Hn128). cbn [bind]. fold n.
  rewrite N.shiftr_div_pow2. change (2 ^ 1) with 2.
  pose proof (dcf_n_pos F p types c HD) as Hp. fold n in Hp.
  apply (keygen_rejects aes F ps types d HC dcf_registered_ps HSh); [clear - Ha; lia|].
  intros [HF Hal]. assert (Hal' : alpha < 2 ^ N.of_nat n).
  { unfold ps in Hal. rewrite (dcf_last_ld F p types c HD) in Hal. fold n in Hal.
    replace (N.of_nat n) with (N.of_nat (n - 1) + 1) by (clear - Hp; lia). rewrite N.pow_add_r. change (2 ^ 1) with 2.
    set (y := 2 ^ N.of_nat (n - 1)) in *. clearbody y. clear - Hal. lia. }
  destruct Hbad as [Hbad|(Hnz & Hbad)]; [clear - Hbad Hal'; lia|].
  (* the most significant bit of alpha *)
  set (k := N.to_nat (N.log2 alpha)).
  assert (Hlog : N.log2 alpha < N.of_nat n) by (apply N.log2_lt_pow2; auto; clear - Hnz; lia).
  assert (Hk : (k < n)%nat) by (unfold k; clear - Hlog; lia).
  assert (Hbit : N.testbit alpha (N.of_nat (n - (n - 1 - k) - 1)) = true).
  { replace (N.of_nat (n - (n - 1 - k) - 1)) with (N.log2 alpha) by (unfold k in *; clear - Hk; lia).
    apply N.bit_log2. auto. }
  set (i := (n - 1 - k)%nat) in *. assert (Hi : (i < n)%nat) by (unfold i; clear - Hp; lia).
  assert (HX : exists T v, cty_ok T = true /\ denotes (p_type p) T /\ repr T beta v).
  { assert (HN : forall (l : list param) (bs : list pvalue) j q b, Forall2 (fun p b => exists T v, cty_ok T = true /\ denotes (p_type p) T /\ repr T b v) l bs ->
        nth_error l j = Some q -> nth_error bs j = Some b -> exists T v, cty_ok T = true /\ denotes (p_type q) T /\ repr T b v).
    { clear. intros l bs j q b H. revert j. induction H as [|? ? ? ? H1 H2 IH]; intros [|j] Hq Hb; try discriminate; cbn in Hq, Hb.
      - inv Hq. inv Hb. exact H1.
      - eauto. }
    destruct (HN _ _ i _ _ HF (dcf_nth p i Hi)
       (nth_error_map_some _ _ (fun i => if N.testbit alpha (N.of_nat (n - i - 1)) then beta else set_to_zero beta) _ _ _ (nth_error_seq n 0 i Hi)))
      as (T & v & Hok & HDn & Hr).
    cbn [Nat.add] in Hr. rewrite Hbit in Hr. exists T, v. auto. }
  destruct HX as (T & v & Hok & HDn & Hr). apply (Hbad T); [split; auto|]. exists v. exact Hr.
Qed.

End Args.

(** ** Accepted arguments *)

Theorem dcf_create_accepts : forall F p T, (1 <= p_ld p <= 128)%Z -> dcf_has p T -> type_wf (p_type p) ->
  (leaves (p_type p) < 2 ^ 23)%Z ->
  is_direct T = true \/ (uniform T /\ samples_securely F (DFin 0) T /\
    forall i, (0 <= i < p_ld p)%Z -> samples_securely F (DFin (inject_Z (40 + i))) T) ->
  exists c, dcf_create F p = Ok c.
Proof.
  intros F p T Hld [Hok HDn] Hwf HL HX. unfold dcf_create. replace (p_ld p <? 1)%Z with false by lia. cbn [negb check bind].
  assert (HD : documented (dcf_dpf_parameters p)).
  { constructor.
    - intros H. apply (f_equal (@length _)) in H. unfold dcf_dpf_parameters in H. rewrite map_length, seq_length in H. cbn in H. lia.
    - apply Forall_forall. intros q Hq. apply in_map_iff in Hq. destruct Hq as (i & <- & Hi). apply in_seq in Hi. cbn [p_ld]. lia.
    - intros i j q q' Hij Hq Hq'. assert (Hi : (i < Z.to_nat (p_ld p))%nat).
      { assert (i < length (dcf_dpf_parameters p))%nat by (apply nth_error_Some; congruence);
          unfold dcf_dpf_parameters in *; rewrite map_length, seq_length in *; lia. }
      assert (Hj : (j < Z.to_nat (p_ld p))%nat).
      { assert (j < length (dcf_dpf_parameters p))%nat by (apply nth_error_Some; congruence);
          unfold dcf_dpf_parameters in *; rewrite map_length, seq_length in *; lia. }
      rewrite dcf_nth in Hq, Hq' by auto. inv Hq. inv Hq'. cbn [p_ld]. lia.
    - apply Forall_forall. intros q Hq. apply in_map_iff in Hq. destruct Hq as (i & <- & Hi). cbn [p_vt]. eauto.
    - apply Forall_forall. intros q Hq. apply in_map_iff in Hq. destruct Hq as (i & <- & Hi). cbn. split; discriminate. }
  rewrite (proj2 (validate_parameters_iff _) HD). cbn [bind].
  destruct (create_accepts F (dcf_dpf_parameters p) HD) as (d & Hd).
  - apply Forall_forall. intros q Hq. apply in_map_iff in Hq. destruct Hq as (i & <- & Hi).
    split; [exact HL|]. exists T. split; [auto|]. split; [auto|].
    destruct HX as [HX|(HX1 & HX2 & HX3)]; [left; exact HX|right]. split; [exact HX1|]. split; [exact HX2|].
    apply in_seq in Hi. apply (HX3 (Z.of_nat i)). lia.
  - rewrite Hd. cbn [bind]. eauto.
Qed.

Lemma set_to_zero_repr_xor : forall T b v, cty_ok T = true -> repr T b v -> exists v', repr T (set_to_zero b) v'.
Proof.
  induction T as [w|w mo|w|ts IH] using cty_ind'; intros b v Hok HR.
  - inversion HR; subst. exists (VNum 0). constructor; [reflexivity|]. lia.
  - inversion HR; subst. exists (VNum 0). constructor; [reflexivity|]. lia.
  - inversion HR; subst. eauto.
  - inversion HR as [| | |ts' els vs HRs]; subst.
    apply cty_ok_tup in Hok. destruct Hok as [_ Hok]. clear HR.
    assert (HX : exists vs', reprs ts (map set_to_zero els) vs').
    { revert els vs HRs. induction ts as [|t ts IHts]; intros els vs HRs; inversion HRs; subst; cbn [map]; [exists []; constructor|].
      inv IH. inv Hok. destruct (IHts H3 H6 _ _ H4) as (vs' & Hvs). destruct (H2 _ _ H5 H1) as (v' & Hv). exists (v' :: vs'). constructor; auto. }
    destruct HX as (vs' & Hvs). exists (VTup vs'). constructor. exact Hvs.
Qed.

Theorem dcf_keygen_accepts : forall aes F p types c alpha T beta v seed0 seed1,
  dcf_created F p types c -> (p_ld p <= 128)%Z -> dcf_registered p types ->
  Forall (roomy (dcf_dpf_parameters p) (dc_dpf c)) types -> dcf_has p T -> repr T beta v ->
  alpha < 2 ^ Z.to_N (p_ld p) ->
  exists k0 k1, dcf_generate_keys aes c alpha beta seed0 seed1 = Ok (k0, k1).
Proof.
  intros aes F p types c alpha T beta v seed0 seed1 HD Hn HR HS [Hok HDn] Hv Ha.
  pose proof (dcf_created_facts F p types c HD) as (HC & Hpar & H1).
  unfold dcf_generate_keys. rewrite Hpar, (dcf_values_ok p Hn). cbn [bind].
  apply (keygen_accepts aes F _ types (dc_dpf c) HC (dcf_registered_ps _ _ HR) HS).
  split.
  - unfold dcf_dpf_parameters.
    assert (HX : forall l : list nat, Forall2 (fun q b => exists T0 v0, cty_ok T0 = true /\ denotes (p_type q) T0 /\ repr T0 b v0)
      (map (fun i => {| p_ld := Z.of_nat i; p_vt := Some (p_type p); p_sec := DFin 0 |}) l)
      (map (fun i => if N.testbit alpha (N.of_nat (Z.to_nat (p_ld p) - i - 1)) then beta else set_to_zero beta) l)).
    { induction l as [|i l IH]; cbn [map]; constructor; auto. destruct (set_to_zero_repr_xor T beta v Hok Hv) as (v' & Hv').
      exists T. destruct (N.testbit _ _); eexists; (split; [exact Hok|split; [exact HDn|eauto]]). }
    apply HX.
  - rewrite (dcf_last_ld F p types c HD), N.shiftr_div_pow2. change (2 ^ 1) with 2.
    replace (Z.to_N (p_ld p)) with (N.of_nat (Z.to_nat (p_ld p) - 1) + 1) in Ha by lia.
    rewrite N.pow_add_r in Ha. change (2 ^ 1) with 2 in Ha. set (y := 2 ^ N.of_nat _) in *. clearbody y. clear - Ha. lia.
Qed.
