(** C28 and C29 for all bounds and all keys: what the code does where the properties are false. *)
From Coq Require Import List NArith ZArith QArith Lia Bool ZifyBool ZifyNat ZifyN.
From Verif Require Import Base ListUtil ValueTypesModel ValueTypesSpec ValueTypesProofs
  ConvProofs BitsProofs TypeProofs DpfModel DpfTree DpfWf DpfGen DpfEval DpfPoint DpfCtx DpfApply
  DpfSpec DpfHist DpfReach DpfSafe DpfCreate DpfFacts DpfExamples DcfModel DcfSpec DcfProofs DcfGen
  MicProofs PropertiesDcf PropertiesMic.
Import ListNotations.
Ltac Zify.zify_post_hook ::= Z.div_mod_to_equations.
Open Scope N_scope.

(** ** C28: bounds in the other encoding are zero *)

(** The same bounds, with every bound that is set but not in the value_uint128 encoding replaced by
    zero. *)
Definition zero_if_not_u128 (v : vinteger) : vinteger := match v with VI128 h l => VI128 h l | _ => VI128 0 0 end.
Definition read_interval (i : interval) : interval :=
  {| iv_lower := option_map zero_if_not_u128 (iv_lower i); iv_upper := option_map zero_if_not_u128 (iv_upper i) |}.
Definition read_params (mp : mic_params) : mic_params :=
  {| mp_log := mp_log mp; mp_intervals := map read_interval (mp_intervals mp) |}.

Lemma read_lower : forall i, lower (read_interval i) = lower i.
Proof. intros [[[| |]|] u]; reflexivity. Qed.
Lemma read_upper : forall i, upper (read_interval i) = upper i.
Proof. intros [l [[| |]|]]; reflexivity. Qed.
Lemma read_u128 : forall mp, Forall u128_bounds (mp_intervals (read_params mp)).
Proof.
  intros mp. cbn [mp_intervals read_params]. apply Forall_map, Forall_forall. intros [[[| |]|] [[| |]|]] _; split; exact I.
Qed.
Lemma read_check : forall g i, check_interval g (read_interval i) = check_interval g i.
Proof. intros g i. unfold check_interval. rewrite read_lower, read_upper. destruct i as [[l|] [u|]]; reflexivity. Qed.
Lemma read_create : forall F mp, mic_create F mp = (m <- mic_create F (read_params mp) ;; Ok {| m_params := mp; m_dcf := m_dcf m |}).
Proof.
  intros F mp. unfold mic_create. cbn [mp_log mp_intervals read_params].
  assert (HI : iterM (check_interval (2 ^ Z.to_N (mp_log mp))) (map read_interval (mp_intervals mp)) = iterM (check_interval (2 ^ Z.to_N (mp_log mp))) (mp_intervals mp)).
  { induction (mp_intervals mp) as [|i l IH]; [reflexivity|]. cbn [map iterM]. rewrite read_check, IH. reflexivity. }
  rewrite HI. clear HI. destruct (check _ _) as [[]| | |]; cbn [bind]; try reflexivity. destruct (iterM _ _) as [[]| | |]; cbn [bind]; try reflexivity.
  destruct (dcf_create _ _); reflexivity.
Qed.
Lemma combine_map_r : forall A B C (f : B -> C) (l : list A) (l' : list B), combine l (map f l') = map (fun ab => (fst ab, f (snd ab))) (combine l l').
Proof. intros A B C f. induction l as [|a l IH]; intros [|b l']; cbn [map combine fst snd]; auto. rewrite IH. reflexivity. Qed.
Lemma read_gen : forall aes mp c r_in r_out seed0 seed1 rnd,
  mic_gen aes {| m_params := mp; m_dcf := c |} r_in r_out seed0 seed1 rnd = mic_gen aes {| m_params := read_params mp; m_dcf := c |} r_in r_out seed0 seed1 rnd.
Proof.
  intros. unfold mic_gen, group_of. cbn [m_params m_dcf mp_log mp_intervals read_params]. rewrite map_length, combine_map_r.
  assert (HZ : forall (f g : nat * interval -> N -> vinteger * vinteger) l l', (forall j i r, f (j, i) r = g (j, read_interval i) r) ->
    zip2 f l l' = zip2 g (map (fun ab : nat * interval => (fst ab, read_interval (snd ab))) l) l').
  { intros f g l. induction l as [|[j i] l IH]; intros [|r l'] H; cbn [zip2 map fst snd]; auto. rewrite (IH l' H), H. reflexivity. }
  erewrite HZ; [reflexivity|]. intros j i r. cbn [fst snd]. unfold mic_correction. rewrite read_lower, read_upper. reflexivity.
Qed.
Lemma flat_map_map_in : forall A B C (f : A -> list B) (g : B -> C) l, flat_map (fun a => map g (f a)) l = map g (flat_map f l).
Proof. intros A B C f g l. induction l as [|a l IH]; [reflexivity|]. cbn [flat_map]. rewrite map_app, IH. reflexivity. Qed.
Lemma mapM_map : forall A B C (f : B -> res C) (g : A -> B) l, mapM f (map g l) = mapM (fun a => f (g a)) l.
Proof. intros A B C f g l. induction l as [|a l IH]; [reflexivity|]. cbn [map mapM]. rewrite IH. reflexivity. Qed.
Lemma mapM_ext_in : forall A B (f g : A -> res B) l, (forall a, In a l -> f a = g a) -> mapM f l = mapM g l.
Proof. intros A B f g l H. induction l as [|a l IH]; [reflexivity|]. cbn [mapM]. rewrite H by (left; reflexivity). rewrite IH; [reflexivity|]. intros b Hb. apply H. right. exact Hb. Qed.
Lemma combine_map_l : forall A B C (f : A -> C) (l : list A) (l' : list B), combine (map f l) l' = map (fun ab => (f (fst ab), snd ab)) (combine l l').
Proof. intros A B C f. induction l as [|a l IH]; intros [|b l']; cbn [map combine fst snd]; auto. rewrite IH. reflexivity. Qed.
Lemma read_eval : forall aes mp c keys points,
  mic_batch_eval aes {| m_params := mp; m_dcf := c |} keys points = mic_batch_eval aes {| m_params := read_params mp; m_dcf := c |} keys points.
Proof.
  intros. unfold mic_batch_eval, group_of. cbn [m_params m_dcf mp_log mp_intervals read_params]. rewrite map_length, combine_map_r. cbv zeta.
  set (re := fun t : (mic_key * N) * (nat * interval) => (fst t, (fst (snd t), read_interval (snd (snd t))))).
  set (cs := combine (seq 0 (length (mp_intervals mp))) (mp_intervals mp)).
  set (tasks := flat_map (fun kx : mic_key * N => map (fun ji : nat * interval => (kx, ji)) cs) (combine keys points)).
  assert (HT : flat_map (fun kx : mic_key * N => map (fun ji : nat * interval => (kx, ji)) (map (fun ab : nat * interval => (fst ab, read_interval (snd ab))) cs)) (combine keys points)
               = map re tasks).
  { unfold tasks. rewrite <- flat_map_map_in. apply flat_map_ext. intros kx. rewrite !map_map. reflexivity. }
  rewrite HT. rewrite !map_map. cbn [re fst snd].
  destruct (check _ _) as [[]| | |]; cbn [bind]; try reflexivity. destruct (iterM _ _) as [[]| | |]; cbn [bind]; try reflexivity.
  destruct (2147483648 <? _); [reflexivity|].
  rewrite (map_ext (fun x => w128 (snd (fst x) + 2 ^ Z.to_N (mp_log mp) - 1 + (P128 - lower (read_interval (snd (snd x))))) mod 2 ^ Z.to_N (mp_log mp))
    (fun t => w128 (snd (fst t) + 2 ^ Z.to_N (mp_log mp) - 1 + (P128 - lower (snd (snd t)))) mod 2 ^ Z.to_N (mp_log mp))) by (intros t; rewrite read_lower; reflexivity).
  rewrite (map_ext (fun x => w128 (snd (fst x) + 2 ^ Z.to_N (mp_log mp) - 1 + (P128 - w128 (upper (read_interval (snd (snd x))) + 1) mod 2 ^ Z.to_N (mp_log mp))) mod 2 ^ Z.to_N (mp_log mp))
    (fun t => w128 (snd (fst t) + 2 ^ Z.to_N (mp_log mp) - 1 + (P128 - w128 (upper (snd (snd t)) + 1) mod 2 ^ Z.to_N (mp_log mp))) mod 2 ^ Z.to_N (mp_log mp))) by (intros t; rewrite read_upper; reflexivity).
  destruct (dcf_batch_evaluate _ _ _ _ _ _) as [s_p| | |]; cbn [bind]; try reflexivity.
  destruct (dcf_batch_evaluate _ _ _ _ _ _) as [s_q| | |]; cbn [bind]; try reflexivity.
  rewrite combine_map_l, mapM_map. apply mapM_ext_in. intros [[[k x] [j i]] [sp sq]] _. cbn [fst snd re]. unfold mic_output. rewrite read_lower, read_upper. reflexivity.
Qed.

(** With any encoding, Create accepts exactly the documented parameters with the bounds that are not
    in the value_uint128 encoding read as zero. *)
Theorem C28_create_exact : forall F mp,
  let valid := (1 <= mp_log mp <= 127)%Z /\ Forall (interval_ok (read_params mp)) (map read_interval (mp_intervals mp)) in
  (valid -> exists m, mic_create F mp = Ok m) /\ (~ valid -> mic_create F mp = Err INVALID_ARGUMENT).
Proof.
  intros F mp valid. rewrite read_create. destruct (C28_create_partial F (read_params mp) (read_u128 mp)) as [H1 H2]. split.
  - intros HV. destruct (H1 HV) as (m & ->). cbn [bind]. eauto.
  - intros HV. rewrite (H2 HV). reflexivity.
Qed.
Print Assumptions C28_create_exact.
(** And the gate is the one for these bounds (C27 for any encoding): an interval with the bounds [3,5]
    as value_uint64 contains exactly 0. *)
Theorem C28_gate_exact : forall aes F mp m gs xs,
  mic_create F mp = Ok m -> Forall (mic_generated aes m) gs -> Forall (fun x => x < group_size mp) xs -> length xs = length gs ->
  N.of_nat (length gs) * N.of_nat (length (mp_intervals mp)) * Z.to_N (mp_log mp) < 2 ^ 31 ->
  let points := zip2 (fun g x => (x + mg_in g) mod group_size mp) gs xs in
  exists rows0 rows1,
    mic_batch_eval aes m (map mg_key0 gs) points = Ok (concat rows0) /\
    mic_batch_eval aes m (map mg_key1 gs) points = Ok (concat rows1) /\
    length rows0 = length gs /\ length rows1 = length gs /\
    forall i g x o0 o1, nth_error gs i = Some g -> nth_error xs i = Some x ->
      nth_error rows0 i = Some o0 -> nth_error rows1 i = Some o1 -> contains_shares (read_params mp) g x o0 o1.
Proof.
  intros aes F mp m gs xs HM HG HX HL HN. rewrite read_create in HM. bind_inv HM. injection HM as <-. destruct a as [mp' c].
  assert (mp' = read_params mp) as ->.
  { unfold mic_create in Hb. bind_inv Hb. bind_inv Hb. bind_inv Hb. injection Hb as <- _. reflexivity. }
  cbn [m_dcf].
  destruct (C27_batch aes F (read_params mp) _ gs xs Hb (read_u128 mp)) as (rows0 & rows1 & H0 & H1 & H2); auto.
  - eapply Forall_impl; [|exact HG]. intros g (s0 & s1 & rnd & Hg). exists s0, s1, rnd. rewrite <- read_gen. exact Hg.
  - cbn [mp_intervals mp_log read_params]. rewrite map_length. exact HN.
  - exists rows0, rows1. rewrite !(read_eval aes mp). split; [exact H0|]. split; [exact H1|]. exact H2.
Qed.
Print Assumptions C28_gate_exact.
Example C28_exact_nonvacuous :
  mic_create ex_F xb_mp = Ok xb_m /\ Forall (mic_generated ex_aes xb_m) [xb_g] /\
  mp_intervals (read_params xb_mp) = [xm_iv 0 0; xm_iv 0 0] /\ Forall (interval_ok (read_params xb_mp)) (map read_interval (mp_intervals xb_mp)) /\
  Forall (interval_ok (read_params xm_mp)) (map read_interval (mp_intervals xm_mp)) /\
  mic_create ex_F {| mp_log := 4; mp_intervals := [{| iv_lower := Some (VI128 0 3); iv_upper := Some (VI64 5) |}] |} = Err INVALID_ARGUMENT.
Proof.
  split; [vm_compute; reflexivity|]. split; [constructor; [exists (2 ^ 100 + 13), (2 ^ 90 + 13), xm_rnd; vm_compute; reflexivity|constructor]|].
  split; [reflexivity|].
  assert (HI : forall mp h p q, mp_log mp = 4%Z -> h = 0 -> p <= q -> q < 16 -> interval_ok mp (xm_iv p q)).
  { intros mp h p q HL _ H1 H2. exists p, q. unfold group_size. rewrite HL. change (2 ^ Z.to_N 4) with 16. split; [|auto].
    assert (p < 2 ^ 64 /\ q < 2 ^ 64) by (change (2 ^ 64) with 18446744073709551616; lia).
    eexists _, _. split; [reflexivity|]. split; [reflexivity|]. split; cbn [encodes]; change (0 mod 2 ^ 64) with 0; [rewrite (N.mod_small p)|rewrite (N.mod_small q)]; try apply H; reflexivity. }
  split; [repeat (apply Forall_cons; [apply (HI _ 0); reflexivity || discriminate|]); apply Forall_nil|].
  split; [repeat (apply Forall_cons; [apply (HI _ 0); reflexivity || discriminate|]); apply Forall_nil|].
  vm_compute. reflexivity.
Qed.

(** ** C29: keys with too few output mask shares *)

Lemma combine_nth_error : forall A B (l : list A) (l' : list B) n a b, nth_error l n = Some a -> nth_error l' n = Some b ->
  nth_error (combine l l') n = Some (a, b).
Proof. intros A B. induction l as [|x l IH]; intros [|y l'] [|n] a b H1 H2; cbn [nth_error combine] in *; try discriminate; [congruence|auto]. Qed.
(** A batch with such a key never returns anything: it is rejected because of another defect of a key,
    or the share is read beyond the end of the repeated field.  The latter whenever all DCF keys can be
    evaluated, for example if shares were removed from generated keys. *)
Theorem C29_short_exact : forall aes F mp m keys points, mic_create F mp = Ok m ->
  length points = length keys -> Forall (fun x => x < group_size mp) points ->
  N.of_nat (length keys) * N.of_nat (length (mp_intervals mp)) * Z.to_N (mp_log mp) < 2 ^ 31 ->
  Exists (fun k => (length (mk_shares k) < length (mp_intervals mp))%nat) keys ->
  (mic_batch_eval aes m keys points = Err INVALID_ARGUMENT \/ mic_batch_eval aes m keys points = UB) /\
  ((forall k x, In k keys -> x < group_size mp -> exists v, dcf_evaluate aes (m_dcf m) (TInt 128) (mk_dcf k) x = Ok v) ->
   mic_batch_eval aes m keys points = UB).
Proof.
  intros aes F mp m keys points HM HL HP HN HE.
  destruct (mic_facts F mp m HM) as (Hp & _ & Hlog & _).
  assert (HG : 0 < group_size mp) by (unfold group_size; pose proof (N.pow_nonzero 2 (Z.to_N (mp_log mp)) ltac:(discriminate)); lia).
  unfold mic_batch_eval, group_of. rewrite Hp. change (2 ^ Z.to_N (mp_log mp)) with (group_size mp).
  rewrite HL, Nat.eqb_refl. cbn [check bind]. rewrite (proj2 (iterM_ok _ _ _)).
  2:{ eapply Forall_impl; [|exact HP]. intros x Hx. cbv beta in *. apply check_ok. apply N.ltb_lt. exact Hx. }
  cbn [bind]. replace (2147483648 <? N.of_nat (length keys) * N.of_nat (length (mp_intervals mp))) with false.
  2:{ symmetry. apply N.ltb_ge. change (2 ^ 31) with 2147483648 in HN. assert (1 <= Z.to_N (mp_log mp)) by lia. clear - HN H. nia. }
  cbv zeta. set (ivs := mp_intervals mp) in *. set (cs := combine (seq 0 (length ivs)) ivs).
  set (tasks := flat_map _ _).
  assert (HTL : length tasks = (length keys * length ivs)%nat).
  { unfold tasks. assert (HX : forall (l : list (mic_key * N)), length (flat_map (fun kx : mic_key * N => map (fun ji : nat * interval => (kx, ji)) cs) l) = (length l * length ivs)%nat).
    { induction l as [|a l IH]; cbn [flat_map length]; auto. rewrite app_length, IH, map_length. unfold cs. rewrite combine_length, seq_length. lia. }
    rewrite HX, combine_length, HL. f_equal. lia. }
  assert (HB : forall pts : (mic_key * N) * (nat * interval) -> N, (forall t, pts t < group_size mp) ->
    exists r, dcf_batch_evaluate aes (m_dcf m) (TInt 128) (map (fun t => mk_dcf (fst (fst t))) tasks) (map pts tasks) (map (fun _ => VNum 0) tasks) = r /\
      (r = Err INVALID_ARGUMENT \/ exists l, r = Ok l /\ length l = length tasks) /\
      ((forall k x, In k keys -> x < group_size mp -> exists v, dcf_evaluate aes (m_dcf m) (TInt 128) (mk_dcf k) x = Ok v) -> is_ok r = true)).
  { intros pts Hpts. eexists. split; [reflexivity|].
    assert (HGP : group_size mp < P128).
    { destruct (G_div F mp m HM) as (k & _ & _ & H). unfold group_size. eapply N.le_lt_trans; [exact H|reflexivity]. }
    rewrite (mic_batch aes F mp m HM); rewrite ?map_length; try reflexivity.
    2:{ apply Forall_map, Forall_forall. intros t _. eapply N.lt_trans; [apply Hpts|exact HGP]. }
    2:{ rewrite HTL, Nat2N.inj_mul. exact HN. }
    rewrite combine_map_l, mapM_map.
    assert (HC : combine tasks (map pts tasks) = map (fun t => (t, pts t)) tasks).
    { clear. induction tasks as [|t l IH]; [reflexivity|]. cbn [map combine]. rewrite IH. reflexivity. }
    rewrite HC, mapM_map. cbn [fst snd]. split.
    - assert (HO : ok_or_invalid (mapM (fun a => dcf_evaluate aes (m_dcf m) (TInt 128) (mk_dcf (fst (fst a))) (pts a)) tasks)).
      { apply ooi_mapM. intros t _. apply (mic_evaluate_ooi aes F mp m HM). eapply N.lt_trans; [apply Hpts|exact HGP]. }
      destruct (mapM _ _) as [l|e| |] eqn:E; cbn in HO; try contradiction; [right|left; congruence]. exists l. split; [reflexivity|]. apply mapM_length in E. exact E.
    - intros HV. assert (HT : forall t, In t tasks -> In (fst (fst t)) keys).
      { intros t Ht. unfold tasks in Ht. apply in_flat_map in Ht. destruct Ht as ([k x] & Hk & Ht). apply in_map_iff in Ht. destruct Ht as (ji & <- & _).
        apply in_combine_l in Hk. exact Hk. }
      clear - HV HT Hpts. induction tasks as [|t l IH]; [reflexivity|]. cbn [mapM].
      destruct (HV (fst (fst t)) (pts t)) as (v & ->); [apply HT; left; reflexivity|apply Hpts|]. cbn [bind].
      destruct (mapM _ l); cbn [is_ok] in *; try reflexivity; apply IH; intros t' Ht'; apply HT; right; exact Ht'. }
  destruct (HB (fun t => w128 (snd (fst t) + group_size mp - 1 + (P128 - lower (snd (snd t)))) mod group_size mp)) as (r1 & E1 & H1 & V1).
  { intros t. apply N.mod_lt. lia. }
  destruct (HB (fun t => w128 (snd (fst t) + group_size mp - 1 + (P128 - w128 (upper (snd (snd t)) + 1) mod group_size mp)) mod group_size mp)) as (r2 & E2 & H2 & V2).
  { intros t. apply N.mod_lt. lia. }
  rewrite E1, E2. destruct H1 as [->|(s_p & -> & L1)]; [cbn [bind]; split; [left; reflexivity|intros HV; specialize (V1 HV); discriminate]|].
  cbn [bind]. destruct H2 as [->|(s_q & -> & L2)]; [cbn [bind]; split; [left; reflexivity|intros HV; specialize (V2 HV); discriminate]|].
  cbn [bind]. match goal with |- (_ \/ ?r = UB) /\ _ => assert (HU : r = UB) end; [|rewrite HU; auto].
  assert (HS : exists t, In t tasks /\ nth_error (mk_shares (fst (fst t))) (fst (snd t)) = None).
  { apply Exists_exists in HE. destruct HE as (k & Hk & Hs). apply In_nth_error in Hk. destruct Hk as (n & Hn).
    destruct (nth_error points n) as [x|] eqn:Ex.
    2:{ apply nth_error_None in Ex. assert (n < length keys)%nat by (apply nth_error_Some; congruence). lia. }
    destruct (nth_error ivs (length (mk_shares k))) as [i|] eqn:Ei; [|apply nth_error_None in Ei; lia].
    exists ((k, x), (length (mk_shares k), i)). split; [|cbn [fst snd]; apply nth_error_None; lia].
    unfold tasks. apply in_flat_map. exists (k, x). split; [apply (nth_error_In _ n), combine_nth_error; assumption|].
    apply in_map_iff. exists (length (mk_shares k), i). split; [reflexivity|]. unfold cs. apply (nth_error_In _ (length (mk_shares k))), combine_nth_error; [|exact Ei].
    rewrite nth_error_seq by lia. reflexivity. }
  clear - HS L1 L2. assert (LC : length (combine s_p s_q) = length tasks) by (rewrite combine_length; lia).
  revert LC. generalize (combine s_p s_q). clear L1 L2. destruct HS as (t & Ht & Hn). induction tasks as [|t' l IH]; intros c LC; [destruct Ht|].
  destruct c as [|[a b] c]; [discriminate|]. cbn [combine mapM]. destruct t' as [[k x] [j i]]. unfold mic_output at 1, at_or_ub at 1.
  destruct (nth_error (mk_shares k) j) eqn:E; [|reflexivity]. cbn [bind].
  destruct Ht as [<-|Ht]; [cbn [fst snd] in Hn; congruence|]. rewrite (IH Ht); [reflexivity|]. now injection LC.
Qed.
Print Assumptions C29_short_exact.
Example C29_short_nonvacuous :
  (length (mk_shares xs_key) < length (mp_intervals xm_mp))%nat /\ mic_eval ex_aes xm_m xs_key 3 = UB /\
  mic_eval ex_aes xm_m {| mk_dcf := {| k_seed := None; k_cws := []; k_party := 0; k_last := [] |}; mk_shares := [] |} 3 = Err INVALID_ARGUMENT.
Proof. split; [cbn; lia|]. split; vm_compute; reflexivity. Qed.
