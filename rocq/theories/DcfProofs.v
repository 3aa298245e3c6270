(** BatchEvaluate is a per-key sum over the levels; the shares of generated keys add up
    to the comparison function. *)
From Coq Require Import List NArith ZArith QArith Lia Bool ZifyBool ZifyNat ZifyN.
From Verif Require Import Base ListUtil ValueTypesModel ValueTypesSpec ValueTypesProofs
  ConvProofs BitsProofs TypeProofs DpfModel DpfTree DpfWf DpfGen DpfEval DpfPoint DpfCtx DpfApply
  DpfSpec DpfHist DpfReach DpfSafe DpfCreate DpfFacts DcfModel DcfSpec.
Import ListNotations.
Ltac Zify.zify_post_hook ::= Z.div_mod_to_equations.
Open Scope N_scope.

Lemma values_to_array_ooi : forall T vs, ok_or_invalid (values_to_array T vs).
Proof.
  intros T vs. unfold values_to_array. destruct (negb _); [reflexivity|].
  induction vs as [|v vs IH]; cbn [mapM]; [exact I|]. apply ooi_bind.
  - pose proof (from_value_safe T v) as [H1 H2]. destruct (from_value T v) eqn:E; cbn; auto; try congruence.
    eapply from_value_err; eauto.
  - intros x _. apply ooi_bind; auto. intros; exact I.
Qed.

Lemma ooi_mapM : forall A B (f : A -> res B) l, (forall a, In a l -> ok_or_invalid (f a)) -> ok_or_invalid (mapM f l).
Proof.
  induction l as [|a l IH]; intros H; cbn [mapM]; [exact I|]. apply ooi_bind; [apply H; left; auto|].
  intros b _. apply ooi_bind; [apply IH; intros; apply H; right; auto|]. intros; exact I.
Qed.

Lemma mapM_bind_split : forall A B C (f : A -> res B) (g : A -> B -> res C) l,
  (forall a, In a l -> ok_or_invalid (f a)) -> (forall a b, In a l -> ok_or_invalid (g a b)) ->
  mapM (fun a => b <- f a ;; g a b) l
  = (bs <- mapM f l ;; mapM (fun ab => g (fst ab) (snd ab)) (combine l bs)).
Proof.
  intros A B C f g. induction l as [|a l IH]; intros Hf Hg; cbn [mapM combine]; auto.
  pose proof (Hf a (or_introl eq_refl)) as H1. destruct (f a) as [b|e| |] eqn:Ef; cbn [bind]; auto.
  rewrite IH by (intros; (apply Hf || apply Hg); right; auto).
  assert (H2 : ok_or_invalid (mapM f l)) by (apply ooi_mapM; intros; apply Hf; right; auto).
  pose proof (Hg a b (or_introl eq_refl)) as H3.
  destruct (mapM f l) as [bs|e| |] eqn:Em; cbn in H2; try contradiction; cbn [bind].
  - cbn [combine mapM fst snd]. reflexivity.
  - subst e. destruct (g a b) as [y|e| |]; cbn in H3; try contradiction; cbn [bind]; congruence.
Qed.

Lemma mapM_combine_fst : forall A B C (f : A -> res C) (l : list A) (l' : list B), length l = length l' ->
  mapM (fun ab => f (fst ab)) (combine l l') = mapM f l.
Proof.
  intros A B C f. induction l as [|a l IH]; intros [|b l'] H; cbn in H; try discriminate; auto.
  cbn [combine mapM fst]. rewrite IH by lia. reflexivity.
Qed.

Section Dcf.
Variable aes : N -> N -> N.
Variables (F : fops) (p : param) (types : list cty) (c : dcf).
Hypothesis HD : dcf_created F p types c.
Let d := dc_dpf c.
Let ps := dcf_dpf_parameters p.
Let n := Z.to_nat (p_ld p).

Lemma dcf_created_facts : created F ps types d /\ dc_param c = p /\ (1 <= p_ld p)%Z.
Proof.
  destruct HD as (c0 & H0 & HT & Hc). unfold dcf_create in H0. bind_inv H0. bind_inv H0. bind_inv H0. inv H0.
  assert (HF : forall tys d0, dc_dpf (fold_right dcf_register {| dc_param := p; dc_dpf := d0 |} tys)
                   = fold_right register_value_type d0 tys
            /\ dc_param (fold_right dcf_register {| dc_param := p; dc_dpf := d0 |} tys) = p).
  { induction tys as [|T tys IH]; intros d0; cbn [fold_right]; auto. destruct (IH d0) as [E1 E2]. cbn [dcf_register dc_dpf dc_param].
    rewrite E1, E2. auto. }
  destruct (HF types a1) as [E1 E2]. subst d. split; [|split].
  - exists a1. split; auto.
  - exact E2.
  - apply check_ok in Hb. lia.
Qed.

Let HC : created F ps types d := proj1 dcf_created_facts.
Let W : wf d := proj1 (created_wf _ _ _ _ HC).

Lemma dcf_len : length ps = n.
Proof using. unfold ps, dcf_dpf_parameters. rewrite map_length, seq_length. reflexivity. Qed.
Lemma dcf_n_pos : (1 <= n)%nat.
Proof. pose proof dcf_created_facts as (_ & _ & H). unfold n. lia. Qed.
Lemma dcf_nth : forall h, (h < n)%nat ->
  nth_error ps h = Some {| p_ld := Z.of_nat h; p_vt := Some (p_type p); p_sec := DFin 0 |}.
Proof using.
  intros h Hh. unfold ps, dcf_dpf_parameters. rewrite nth_error_map_some with (a := h); auto.
  rewrite nth_error_seq by (fold n; lia). reflexivity.
Qed.
Lemma dcf_level_ld : forall h, (h < n)%nat -> level_ld ps h = N.of_nat h.
Proof using. intros h Hh. unfold level_ld. rewrite dcf_nth by auto. cbn [p_ld]. lia. Qed.
Lemma dcf_last_ld : last_ld ps = N.of_nat (n - 1).
Proof. unfold last_ld. rewrite dcf_len. pose proof dcf_n_pos. apply dcf_level_ld. lia. Qed.
Lemma dcf_ld : forall h, (h < n)%nat -> ld d h = h.
Proof.
  intros h Hh. pose proof (created_ld _ _ _ _ h HC) as H. rewrite dcf_len in H. specialize (H Hh).
  rewrite dcf_level_ld in H by auto. lia.
Qed.
Lemma dcf_ld_last : ld_last d = (n - 1)%nat.
Proof. pose proof (created_last_ld _ _ _ _ HC) as H. rewrite dcf_last_ld in H. lia. Qed.
Lemma dcf_nlevels : nlevels d = n.
Proof. rewrite (created_len _ _ _ _ HC). apply dcf_len. Qed.
Lemma dcf_level_has : forall T h, dcf_has p T -> (h < n)%nat -> level_has ps h T.
Proof using.
  intros T h [Hok HDn] Hh. split; auto. eexists. split; [apply dcf_nth; auto|]. exact HDn.
Qed.
Lemma dcf_has_level : forall T h, level_has ps h T -> dcf_has p T.
Proof.
  intros T h (Hok & q & Hq & HDn). assert (Hh : (h < n)%nat).
  { rewrite <- dcf_len. apply nth_error_Some. congruence. }
  rewrite dcf_nth in Hq by auto. inv Hq. split; auto.
Qed.

Section Batch.
Variable T : cty.
Hypothesis HT : dcf_has p T.
Hypothesis Hn128 : (p_ld p <= 128)%Z.

(** The value of one key at one level, and the accumulation of the levels. *)
Definition key_value (k : dkey) (x : N) (h : nat) : res cval :=
  corrs <- values_to_array T (key_values d k h) ;;
  Ok (share aes d T k h corrs (level_point d 1 h x)).
Definition acc_value (x : N) (h : nat) (o v : cval) : cval :=
  if N.testbit x (N.of_nat (n - h - 1)) then o else vadd T o v.
Fixpoint key_loop (m h : nat) (k : dkey) (x : N) (o : cval) : res cval :=
  match m with
  | O => Ok o
  | S m' => v <- key_value k x h ;; key_loop m' (S h) k x (acc_value x h o v)
  end.

Lemma key_value_ooi : forall k x h, ok_or_invalid (key_value k x h).
Proof. intros. unfold key_value. apply ooi_bind; [apply values_to_array_ooi|]. intros; exact I. Qed.
Lemma key_loop_ooi : forall m h k x o, ok_or_invalid (key_loop m h k x o).
Proof.
  induction m as [|m IH]; intros; cbn [key_loop]; [exact I|]. apply ooi_bind; [apply key_value_ooi|]. intros; apply IH.
Qed.

Lemma bit_128_ok : forall x h, (h < n)%nat -> bit_128 x (p_ld p - Z.of_nat h - 1) = Ok (N.testbit x (N.of_nat (n - h - 1))).
Proof using Hn128.
  intros x h Hh. unfold n in *. clear - Hn128 Hh. unfold bit_128.
  assert (0 <= p_ld p - Z.of_nat h - 1 < 128)%Z by lia.
  replace ((p_ld p - Z.of_nat h - 1 <? 0)%Z || (128 <=? p_ld p - Z.of_nat h - 1)%Z) with false by lia.
  do 2 f_equal. lia.
Qed.

Lemma num_keys_int : forall keys : list dkey, N.of_nat (length keys) * N.of_nat n < 2 ^ 31 ->
  to_int32 (Z.of_nat (length keys)) = Z.of_nat (length keys).
Proof.
  intros keys HN. unfold to_int32. pose proof dcf_n_pos as Hp. assert (Z.of_nat (length keys) < 2 ^ 31)%Z by nia.
  clear - H. set (z := Z.of_nat (length keys)) in *. assert (0 <= z)%Z by (unfold z; lia). clearbody z.
  rewrite Z.mod_small by lia. lia.
Qed.

Section Keys.
Variables (keys : list dkey) (points : list N).
Hypothesis HL : length points = length keys.
Hypothesis HK : Forall (key_ok d) keys.
Hypothesis HP : Forall (fun x => x < P128) points.
Hypothesis HN : N.of_nat (length keys) * N.of_nat n < 2 ^ 31.
Hypothesis HE : keys <> [] -> forall h, (h < n)%nat -> enough_bytes T (16 * blocks d h).

Lemma dcf_apply_int : (Z.of_nat (d_levels d) * Z.of_nat (length keys) < 2 ^ 31)%Z.
Proof.
  rewrite (wf_levels _ W). pose proof dcf_nlevels. pose proof (wf_pos _ W).
  pose proof (h2t_le_ld_last d W (nlevels d - 1) ltac:(lia)). pose proof dcf_ld_last. nia.
Qed.

Lemma accumulate_ok : forall h outs vs, (h < n)%nat -> length outs = length keys -> length vs = length keys ->
  dcf_accumulate T (p_ld p) (Z.of_nat (length keys)) points (Ok (Z.of_nat h, outs)) vs
  = (Ok (Z.of_nat (S h), map (fun xov : N * (cval * cval) => acc_value (fst xov) h (fst (snd xov)) (snd (snd xov)))
                            (combine points (combine outs vs))), true).
Proof.
  intros h outs vs Hh Ho Hv. unfold dcf_accumulate. rewrite Hv, Z.eqb_refl. cbn [negb].
  rewrite (mapM_map_ok _ _ _ (fun xov : N * (cval * cval) => acc_value (fst xov) h (fst (snd xov)) (snd (snd xov)))).
  2:{ intros [x [o v]] _. cbn [fst snd]. rewrite bit_128_ok by auto. reflexivity. }
  cbn [bind]. rewrite bit_128_ok by auto. cbn [bind].
  replace (Z.of_nat h + 1)%Z with (Z.of_nat (S h)) by lia. reflexivity.
Qed.

Lemma key_loop_step : forall m h (kxs : list (dkey * N)) outs vs, length outs = length kxs -> length vs = length kxs ->
  mapM (fun ab : ((dkey * N) * cval) * cval =>
          key_loop m (S h) (fst (fst (fst ab))) (snd (fst (fst ab))) (acc_value (snd (fst (fst ab))) h (snd (fst ab)) (snd ab)))
       (combine (combine kxs outs) vs)
  = mapM (fun kxo : (dkey * N) * cval => key_loop m (S h) (fst (fst kxo)) (snd (fst kxo)) (snd kxo))
       (combine kxs (map (fun xov : N * (cval * cval) => acc_value (fst xov) h (fst (snd xov)) (snd (snd xov)))
                            (combine (map snd kxs) (combine outs vs)))).
Proof.
  intros m h. induction kxs as [|[k x] kxs IH]; intros [|o outs] [|v vs] Ho Hv; cbn in Ho, Hv; try discriminate; auto.
  cbn [combine map mapM fst snd]. rewrite IH by lia. reflexivity.
Qed.

Lemma map_snd_combine' : map snd (combine keys points) = points.
Proof.
  clear - HL. revert points HL. induction keys as [|k ks IH]; intros [|x xs] HL; cbn in HL; try discriminate; auto.
  cbn [combine map snd]. rewrite IH by lia. reflexivity.
Qed.

Lemma batch_loop : forall m h start outs, (h + m = n)%nat -> (start <= h2t d h \/ m = 0)%nat -> length outs = length keys ->
  apply_loop aes d T keys points 1 (dcf_accumulate T (p_ld p) (Z.of_nat (length keys)) points) m h start
    (nodes_at aes d keys points 1 start) (Ok (Z.of_nat h, outs))
  = (outs' <- mapM (fun kxo : (dkey * N) * cval => key_loop m h (fst (fst kxo)) (snd (fst kxo)) (snd kxo))
                  (combine (combine keys points) outs) ;;
     Ok (Ok (Z.of_nat n, outs'))).
Proof.
  induction m as [|m IH]; intros h start outs Hm Hs Ho; cbn [apply_loop].
  - cbn [key_loop].
    assert (HX : forall (l : list (dkey * N)) (o : list cval), length o = length l ->
        mapM (fun kxo : (dkey * N) * cval => Ok (snd kxo)) (combine l o) = Ok o).
    { clear. induction l as [|a l IH]; intros [|b o] H; cbn in H; try discriminate; auto.
      cbn [combine mapM snd bind]. rewrite IH by lia. reflexivity. }
    rewrite HX by (rewrite combine_length; lia). cbn [bind]. do 3 f_equal. lia.
  - pose proof dcf_nlevels as Hnl.
    rewrite (apply_level_eq aes d W T keys points 1 HL HK HP dcf_apply_int h start); try lia.
    2:{ eapply level_has_type; [exact HC|]. apply dcf_level_has; auto. lia. }
    2:{ intros Hne. apply HE; auto. lia. }
    cbn [key_loop].
    rewrite (mapM_bind_split _ _ _
      (fun kxo : (dkey * N) * cval => key_value (fst (fst kxo)) (snd (fst kxo)) h)
      (fun kxo v => key_loop m (S h) (fst (fst kxo)) (snd (fst kxo)) (acc_value (snd (fst kxo)) h (snd kxo) v))).
    2:{ intros. apply key_value_ooi. }
    2:{ intros. apply key_loop_ooi. }
    rewrite (mapM_combine_fst _ _ _ (fun kx : dkey * N => key_value (fst kx) (snd kx) h))
      by (rewrite combine_length; lia).
    change (mapM (fun kx : dkey * N => key_value (fst kx) (snd kx) h) (combine keys points))
      with (level_values aes d T keys points 1 h).
    assert (HVL : forall vs, level_values aes d T keys points 1 h = Ok vs -> length vs = length keys).
    { intros vs Hvs. apply mapM_length in Hvs. rewrite combine_length in Hvs. lia. }
    destruct (level_values aes d T keys points 1 h) as [vs| | |]; cbn [bind]; auto.
    specialize (HVL vs eq_refl).
    rewrite accumulate_ok by lia. rewrite IH.
    + rewrite key_loop_step by (rewrite combine_length; lia). rewrite map_snd_combine'. reflexivity.
    + lia.
    + destruct m; [right; auto|left]. pose proof (wf_h2t_mono _ W h (S h)). lia.
    + rewrite map_length, !combine_length. lia.
Qed.

Theorem batch_valid_eq : forall output, length output = length keys ->
  dcf_batch_evaluate aes c T keys points output
  = mapM (fun kx : dkey * N => key_loop n 0 (fst kx) (snd kx) (vzero T)) (combine keys points).
Proof.
  intros output Ho. unfold dcf_batch_evaluate. rewrite HL, Ho, !Nat.eqb_refl. cbn [check bind].
  rewrite num_keys_int by auto. replace (Z.of_nat (length keys) <? 0)%Z with false by lia.
  rewrite Nat2Z.id, firstn_all. pose proof (proj1 (proj2 dcf_created_facts)) as Hpar. rewrite Hpar.
  unfold evaluate_and_apply. fold d. rewrite HL, Nat.eqb_refl. cbn [check bind].
  rewrite (proj2 (iterM_ok _ _ _)).
  2:{ exact HK. }
  cbn [bind].
  assert (HR : map (fun k => (key_seed k, key_bit k)) keys = nodes_at aes d keys points 1 0).
  { unfold nodes_at. clear - HL. revert points HL. induction keys as [|k ks IH]; intros [|x pts] HL; cbn in *; try lia; auto.
    f_equal. apply IH. lia. }
  rewrite HR. change 0%Z with (Z.of_nat 0). rewrite dcf_nlevels.
  rewrite batch_loop by (rewrite ?map_length; lia).
  assert (HX : mapM (fun kxo : (dkey * N) * cval => key_loop n 0 (fst (fst kxo)) (snd (fst kxo)) (snd kxo))
                 (combine (combine keys points) (map (fun _ => vzero T) output))
             = mapM (fun kx : dkey * N => key_loop n 0 (fst kx) (snd kx) (vzero T)) (combine keys points)).
  { assert (HX : forall (l : list (dkey * N)) (o : list cval), length o = length l ->
      mapM (fun kxo : (dkey * N) * cval => key_loop n 0 (fst (fst kxo)) (snd (fst kxo)) (snd kxo))
                 (combine l (map (fun _ => vzero T) o))
      = mapM (fun kx : dkey * N => key_loop n 0 (fst kx) (snd kx) (vzero T)) l).
    { clear. induction l as [|a l IH]; intros [|b o] H; cbn in H; try discriminate; auto.
      cbn [map combine mapM fst snd]. rewrite IH by lia. reflexivity. }
    apply HX. rewrite combine_length. lia. }
  rewrite HX. clear HX. destruct (mapM _ _); reflexivity.
Qed.
End Keys.

Theorem evaluate_valid_eq : forall k x, key_ok d k -> x < P128 ->
  (forall h, (h < n)%nat -> enough_bytes T (16 * blocks d h)) ->
  dcf_evaluate aes c T k x = key_loop n 0 k x (vzero T).
Proof.
  intros k x Hk Hx HE. unfold dcf_evaluate.
  rewrite (batch_valid_eq [k] [x]); auto.
  - cbn [combine mapM fst snd]. destruct (key_loop n 0 k x (vzero T)); reflexivity.
  - cbn [length]. unfold n. lia.
Qed.

Lemma evaluate_invalid : forall k x, ~ key_ok d k -> dcf_evaluate aes c T k x = Err INVALID_ARGUMENT.
Proof.
  intros k x Hk. unfold dcf_evaluate, dcf_batch_evaluate. cbn [length Nat.eqb check bind map].
  change (to_int32 (Z.of_nat 1)) with 1%Z. cbn [Z.ltb Z.compare]. change (Z.to_nat 1) with 1%nat. cbn [firstn].
  unfold evaluate_and_apply. cbn [length Nat.eqb check bind iterM]. fold d.
  assert (HX : validate_dpf_key d k = Err INVALID_ARGUMENT).
  { apply ooi_not_ok; [apply validate_dpf_key_ooi; auto|]. intros [] H. apply Hk. exact H. }
  rewrite HX. reflexivity.
Qed.

(** BatchEvaluate is Evaluate on every key, whatever the keys are. *)
Theorem batch_is_single : forall keys points output, length points = length keys -> length output = length keys ->
  Forall (fun x => x < P128) points -> N.of_nat (length keys) * N.of_nat n < 2 ^ 31 ->
  (forall h, (h < n)%nat -> enough_bytes T (16 * blocks d h)) ->
  dcf_batch_evaluate aes c T keys points output
  = mapM (fun kx : dkey * N => dcf_evaluate aes c T (fst kx) (snd kx)) (combine keys points).
Proof.
  intros keys points output HL Ho HP HN HE.
  assert (Hdec : forall ks, Forall (key_ok d) ks \/ exists k, In k ks /\ ~ key_ok d k).
  { clear. induction ks as [|k ks [IH|(k' & H1 & H2)]].
    - left. constructor.
    - destruct (validate_dpf_key d k) as [[]| | |] eqn:E.
      + left. constructor; auto.
      + right. exists k. split; [left; auto|]. unfold key_ok. congruence.
      + right. exists k. split; [left; auto|]. unfold key_ok. congruence.
      + right. exists k. split; [left; auto|]. unfold key_ok. congruence.
    - right. exists k'. split; [right; auto|auto]. }
  destruct (Hdec keys) as [HK|(k & Hk & Hbad)].
  - rewrite (batch_valid_eq keys points) by auto. apply mapM_ext. intros [k x] Hin. cbn [fst snd].
    symmetry. rewrite Forall_forall in HK, HP. apply evaluate_valid_eq; auto.
    + apply HK. eapply in_combine_l; eauto.
    + apply HP. eapply in_combine_r; eauto.
  - assert (HB : dcf_batch_evaluate aes c T keys points output = Err INVALID_ARGUMENT).
    { unfold dcf_batch_evaluate. rewrite HL, Ho, !Nat.eqb_refl. cbn [check bind]. rewrite num_keys_int by auto.
      replace (Z.of_nat (length keys) <? 0)%Z with false by lia. rewrite Nat2Z.id, firstn_all.
      unfold evaluate_and_apply. fold d. rewrite HL, Nat.eqb_refl. cbn [check bind].
      assert (HX : iterM (validate_dpf_key d) keys = Err INVALID_ARGUMENT).
      { apply ooi_not_ok; [apply ooi_iterM; intros; apply validate_dpf_key_ooi; auto|].
        intros [] H. pose proof (proj1 (iterM_ok _ _ _) H) as HF. rewrite Forall_forall in HF. apply Hbad. apply HF. auto. }
      rewrite HX. reflexivity. }
    rewrite HB. symmetry. apply ooi_not_ok.
    + apply ooi_mapM. intros [k' x'] Hin. cbn [fst snd]. destruct (Hdec [k']) as [H|(k2 & [<-|[]] & H)].
      * fcons H H1 H2. rewrite evaluate_valid_eq; auto; [apply key_loop_ooi|].
        rewrite Forall_forall in HP. apply HP. eapply in_combine_r; eauto.
      * rewrite evaluate_invalid by auto. reflexivity.
    + intros r Hr. apply mapM_ok_iff in Hr.
      apply In_nth_error in Hk. destruct Hk as (i & Hi).
      destruct (nth_error points i) as [x|] eqn:Hx.
      2:{ apply nth_error_None in Hx. assert (i < length keys)%nat by (apply nth_error_Some; congruence). lia. }
      assert (Hc : In (k, x) (combine keys points)).
      { clear - Hi Hx. revert points i Hi Hx. induction keys as [|a l IH]; intros [|b pts] [|i] Hi Hx; try discriminate; cbn in *.
        - left. congruence.
        - right. eauto. }
      apply In_nth_error in Hc. destruct Hc as (j & Hj).
      destruct (nth_error r j) as [v|] eqn:Hv.
      2:{ apply nth_error_None in Hv. apply Forall2_length in Hr.
          assert (j < length (combine keys points))%nat by (apply nth_error_Some; congruence). lia. }
      assert (HX : dcf_evaluate aes c T k x = Ok v).
      { clear - Hr Hj Hv. revert j Hj Hv. induction Hr as [|a b l l' H1 H2 IH]; intros [|j] Hj Hv; try discriminate; cbn in *.
        - inv Hj. inv Hv. exact H1.
        - eauto. }
      rewrite evaluate_invalid in HX by auto. discriminate.
Qed.

End Batch.
End Dcf.
