(** Properties of the multiple interval containment gate: C27-C29.  See DcfSpec.v for the
    vocabulary. *)
From Coq Require Import List NArith ZArith QArith Lia Bool ZifyBool ZifyNat ZifyN.
From Verif Require Import Base ListUtil ValueTypesModel ValueTypesSpec ValueTypesProofs
  ConvProofs BitsProofs TypeProofs DpfModel DpfTree DpfWf DpfGen DpfEval DpfPoint DpfCtx DpfApply
  DpfSpec DpfHist DpfReach DpfSafe DpfCreate DpfFacts DpfExamples DcfModel DcfSpec DcfProofs DcfGen
  MicProofs PropertiesDcf.
Import ListNotations.
Ltac Zify.zify_post_hook ::= Z.div_mod_to_equations.
Open Scope N_scope.

(** A gate on 4-bit inputs with the intervals [3,5], [0,15] and [7,7], and two key
    pairs. *)
Definition xm_iv (p q : N) : interval := {| iv_lower := Some (VI128 0 p); iv_upper := Some (VI128 0 q) |}.
Definition xm_mp : mic_params := {| mp_log := 4; mp_intervals := [xm_iv 3 5; xm_iv 0 15; xm_iv 7 7] |}.
Definition xm_of (mp : mic_params) : mic :=
  match mic_create ex_F mp with Ok m => m | _ => {| m_params := mp; m_dcf := no_dcf |} end.
Definition xm_m : mic := Eval vm_compute in xm_of xm_mp.
Definition xm_rnd (i : nat) : N := ex_aes 5 (N.of_nat i).
Definition xm_pair (m : mic) (r_in : N) (r_out : list N) : mic_pair :=
  match mic_gen ex_aes m r_in r_out (2 ^ 100 + r_in) (2 ^ 90 + r_in) xm_rnd with
  | Ok (k0, k1) => {| mg_in := r_in; mg_out := r_out; mg_key0 := k0; mg_key1 := k1 |}
  | _ => {| mg_in := 0; mg_out := []; mg_key0 := {| mk_dcf := ex_k0; mk_shares := [] |};
            mg_key1 := {| mk_dcf := ex_k0; mk_shares := [] |} |}
  end.
Definition xm_gs : list mic_pair := Eval vm_compute in [xm_pair xm_m 13 [1; 15; 7]; xm_pair xm_m 0 [0; 0; 0]].
Lemma xm_created : mic_create ex_F xm_mp = Ok xm_m.
Proof. vm_compute. reflexivity. Qed.
Lemma xm_generated : Forall (mic_generated ex_aes xm_m) xm_gs.
Proof.
  unfold xm_gs. apply Forall_cons; [|apply Forall_cons; [|apply Forall_nil]].
  - exists (2 ^ 100 + 13), (2 ^ 90 + 13), xm_rnd. vm_compute. reflexivity.
  - exists (2 ^ 100 + 0), (2 ^ 90 + 0), xm_rnd. vm_compute. reflexivity.
Qed.

(** ** C27: correctness *)

Lemma bounds_u128 : forall i p q, u128_bounds i -> bounds i p q -> lower i = p /\ upper i = q.
Proof.
  intros i p q [H1 H2] (a & b & Ha & Hb & Ep & Eq). unfold lower, upper. rewrite Ha in *. rewrite Hb in *.
  destruct a; cbn [is_u128 encodes] in *; try contradiction. destruct b; cbn [is_u128 encodes] in *; try contradiction.
  cbn [opt_u128_field u128_field]. unfold mk128. subst. split; reflexivity.
Qed.

Lemma combine_zip2 : forall (A B C D : Type) (f : A -> C) (g : A -> B -> D) (l : list A) (l' : list B),
  combine (map f l) (zip2 g l l') = map (fun ab => (f (fst ab), g (fst ab) (snd ab))) (combine l l').
Proof. intros A B C D f g. induction l as [|a l IH]; intros [|b l']; cbn [map zip2 combine]; auto. rewrite IH. reflexivity. Qed.

(** The outputs of a batch are the concatenation of one row per key.  All intervals use
    the value_uint128 encoding (see C28 for the other); the number of DCF evaluations
    times the number of levels fits an int. *)
Theorem C27_batch : forall aes F mp m gs xs,
  mic_create F mp = Ok m -> Forall u128_bounds (mp_intervals mp) ->
  Forall (mic_generated aes m) gs -> Forall (fun x => x < group_size mp) xs -> length xs = length gs ->
  N.of_nat (length gs) * N.of_nat (length (mp_intervals mp)) * Z.to_N (mp_log mp) < 2 ^ 31 ->
  let points := zip2 (fun g x => (x + mg_in g) mod group_size mp) gs xs in
  exists rows0 rows1,
    mic_batch_eval aes m (map mg_key0 gs) points = Ok (concat rows0) /\
    mic_batch_eval aes m (map mg_key1 gs) points = Ok (concat rows1) /\
    length rows0 = length gs /\ length rows1 = length gs /\
    forall i g x o0 o1, nth_error gs i = Some g -> nth_error xs i = Some x ->
      nth_error rows0 i = Some o0 -> nth_error rows1 i = Some o1 -> contains_shares mp g x o0 o1.
Proof.
  intros aes F mp m gs xs HM HU HG Hxs HL HN points.
  assert (Hone : forall g x, mic_generated aes m g -> x < group_size mp -> exists o0 o1,
     mic_row aes mp m (mg_key0 g) ((x + mg_in g) mod group_size mp) = Ok o0 /\
     mic_row aes mp m (mg_key1 g) ((x + mg_in g) mod group_size mp) = Ok o1 /\ contains_shares mp g x o0 o1).
  { intros g x (s0 & s1 & rnd & Hg) Hx.
    destruct (mic_gen_facts aes F mp m HM _ _ _ _ _ _ _ Hg) as (Hlo & _).
    assert (HR : forall l off, (forall j i, nth_error l j = Some i -> nth_error (mp_intervals mp) (off + j) = Some i) ->
       exists o0 o1, mapM (mic_task aes mp m (mg_key0 g) ((x + mg_in g) mod group_size mp)) (combine (seq off (length l)) l) = Ok o0 /\
         mapM (mic_task aes mp m (mg_key1 g) ((x + mg_in g) mod group_size mp)) (combine (seq off (length l)) l) = Ok o1 /\
         length o0 = length l /\ length o1 = length l /\
         forall j i p q r a b, nth_error l j = Some i -> bounds i p q ->
           nth_error (mg_out g) (off + j) = Some r -> nth_error o0 j = Some a -> nth_error o1 j = Some b ->
           (a + b) mod group_size mp = (r + (if (p <=? x) && (x <=? q) then 1 else 0)) mod group_size mp).
    { induction l as [|i l IH]; intros off Hoff.
      - exists [], []. do 4 (split; [reflexivity|]). intros [|?]; discriminate.
      - destruct (IH (S off)) as (o0 & o1 & H0 & H1 & L0 & L1 & HI).
        { intros j i' Hj. rewrite Nat.add_succ_l, <- Nat.add_succ_r. apply Hoff. exact Hj. }
        pose proof (Hoff 0%nat i eq_refl) as Hi. rewrite Nat.add_0_r in Hi.
        destruct (nth_error (mg_out g) off) as [r|] eqn:Er.
        2:{ apply nth_error_None in Er. assert (off < length (mp_intervals mp))%nat by (apply nth_error_Some; congruence). lia. }
        destruct (mic_task_sum aes F mp m HM _ _ _ _ _ _ _ Hg x off i r Hx Hi Er) as (a & b & Ha & Hb & Hab).
        exists (a :: o0), (b :: o1). cbn [length seq combine mapM].
        change (2 ^ Z.to_N (mp_log mp)) with (group_size mp) in *.
        rewrite Ha, Hb, H0, H1. cbn [bind length]. split; auto. split; auto. split; [congruence|]. split; [congruence|].
        intros [|j] i' p q r' a' b' Hj HB Hr Ha' Hb'; cbn [nth_error] in *.
        + inversion Hj; inversion Ha'; inversion Hb'; subst. rewrite Nat.add_0_r in Hr. rewrite Hr in Er. inversion Er; subst.
          rewrite Forall_forall in HU. destruct (bounds_u128 i' p q (HU _ (nth_error_In _ _ Hi)) HB) as [<- <-]. exact Hab.
        + rewrite Nat.add_succ_r, <- Nat.add_succ_l in Hr. eapply HI; eauto. }
    destruct (HR (mp_intervals mp) 0%nat) as (o0 & o1 & H0 & H1 & L0 & L1 & HI); auto.
    exists o0, o1. split; [exact H0|]. split; [exact H1|]. split; auto. }
  assert (HGpos : group_size mp <> 0) by (unfold group_size; apply N.pow_nonzero; discriminate).
  assert (HP : Forall (fun x => x < group_size mp) points).
  { unfold points. clear - HGpos. revert xs. induction gs as [|g gs IH]; intros [|x xs]; cbn [zip2]; constructor; auto. apply N.mod_lt. auto. }
  assert (HPL : length points = length gs) by (unfold points; apply zip2_length; auto).
  assert (HS : Forall (fun k => (length (mp_intervals mp) <= length (mk_shares k))%nat) (map mg_key0 gs) /\
               Forall (fun k => (length (mp_intervals mp) <= length (mk_shares k))%nat) (map mg_key1 gs)).
  { rewrite !Forall_map. split; (eapply Forall_impl; [|exact HG]); intros g (s0 & s1 & rnd & Hg);
    destruct (mic_gen_facts aes F mp m HM _ _ _ _ _ _ _ Hg) as (_ & _ & _ & _ & _ & _ & H0 & H1 & _); lia. }
  destruct HS as [HS0 HS1].
  rewrite !(mic_batch_rows aes F mp m HM) by (rewrite ?map_length; auto).
  unfold points. rewrite !combine_zip2, !mapM_map_l. cbn [fst snd]. clear HS0 HS1 HPL HP points HN.
  revert xs Hxs HL. induction HG as [|g gs Hg HG IH]; intros [|x xs] Hxs HL; try discriminate.
  - exists [], []. do 4 (split; [reflexivity|]). intros [|?]; discriminate.
  - fcons Hxs Hx Hxs'. destruct (Hone g x Hg Hx) as (o0 & o1 & H0 & H1 & HC).
    destruct (IH xs Hxs') as (rows0 & rows1 & R0 & R1 & L0 & L1 & HI); [cbn in HL; lia|].
    exists (o0 :: rows0), (o1 :: rows1). cbn [combine mapM fst snd]. rewrite H0, H1. cbn [bind].
    match type of R0 with bind ?a _ = _ => destruct a as [q0| | |] end; cbn [bind] in *; try discriminate.
    match type of R1 with bind ?a _ = _ => destruct a as [q1| | |] end; cbn [bind] in *; try discriminate.
    cbn [concat]. split; [congruence|]. split; [congruence|]. cbn [length]. split; [congruence|]. split; [congruence|].
    intros [|i] g' x' o0' o1' Hg' Hx' Ho0 Ho1; cbn [nth_error] in *.
    + inversion Hg'; inversion Hx'; inversion Ho0; inversion Ho1; subst. exact HC.
    + eapply HI; eauto.
Qed.
Print Assumptions C27_batch.

Theorem C27_eval : forall aes F mp m g x,
  mic_create F mp = Ok m -> Forall u128_bounds (mp_intervals mp) -> mic_generated aes m g -> x < group_size mp ->
  N.of_nat (length (mp_intervals mp)) * Z.to_N (mp_log mp) < 2 ^ 31 ->
  exists o0 o1,
    mic_eval aes m (mg_key0 g) ((x + mg_in g) mod group_size mp) = Ok o0 /\
    mic_eval aes m (mg_key1 g) ((x + mg_in g) mod group_size mp) = Ok o1 /\ contains_shares mp g x o0 o1.
Proof.
  intros aes F mp m g x HM HU Hg Hx HN.
  destruct (C27_batch aes F mp m [g] [x] HM HU) as (rows0 & rows1 & H0 & H1 & L0 & L1 & HI); auto.
  { cbn [length]. change (N.of_nat 1) with 1. rewrite N.mul_1_l. exact HN. }
  destruct rows0 as [|o0 [|? ?]]; try discriminate. destruct rows1 as [|o1 [|? ?]]; try discriminate.
  exists o0, o1. cbn [map zip2 concat] in *. rewrite app_nil_r in *. split; [exact H0|]. split; [exact H1|].
  apply (HI 0%nat g x); reflexivity.
Qed.
Print Assumptions C27_eval.

(** Gen accepts masks that are group elements, one output mask per interval, and rejects
    everything else. *)
Theorem C27_gen : forall aes F mp m r_in r_out seed0 seed1 rnd, mic_create F mp = Ok m ->
  (r_in < group_size mp /\ Forall (fun r => r < group_size mp) r_out /\ length r_out = length (mp_intervals mp) ->
   exists k0 k1, mic_gen aes m r_in r_out seed0 seed1 rnd = Ok (k0, k1)) /\
  (~ (r_in < group_size mp /\ Forall (fun r => r < group_size mp) r_out /\ length r_out = length (mp_intervals mp)) ->
   mic_gen aes m r_in r_out seed0 seed1 rnd = Err INVALID_ARGUMENT).
Proof.
  intros aes F mp m r_in r_out seed0 seed1 rnd HM. destruct (mic_facts F mp m HM) as (Hp & HD & Hlog & _).
  unfold mic_gen, group_of. rewrite Hp. change (2 ^ Z.to_N (mp_log mp)) with (group_size mp). split.
  - intros (H1 & H2 & H3). rewrite H3, Nat.eqb_refl. cbn [check bind]. rewrite (proj2 (N.ltb_lt _ _) H1). cbn [check bind].
    rewrite (proj2 (iterM_ok _ _ _)).
    2:{ eapply Forall_impl; [|exact H2]. intros r Hr. cbv beta in *. apply check_ok, N.ltb_lt. exact Hr. }
    cbn [bind]. unfold dcf_generate_keys_t.
    assert (HD' : dcf_created F {| p_ld := mp_log mp; p_vt := Some (to_value_type (TInt 128)); p_sec := DFin 0 |} [TInt 128]
                    (dcf_register (TInt 128) (m_dcf m))).
    { destruct HD as (c0 & Hc0 & _ & Hc1). exists c0. split; auto. split; [repeat constructor|]. cbn [fold_right] in *. rewrite Hc1. reflexivity. }
    destruct (dcf_keygen_accepts aes F _ [TInt 128] _ (w128 (group_size mp - 1 + r_in) mod group_size mp) (TInt 128)
                (to_value (TInt 128) (VNum 1)) (VNum 1) seed0 seed1 HD') as (k0 & k1 & HK).
    + cbn [p_ld]. lia.
    + exists (TInt 128). split; [left; reflexivity|reflexivity].
    + repeat constructor. eapply shape_roomy; [exact (proj1 (dcf_created_facts _ _ _ _ HD'))|reflexivity].
    + split; [reflexivity|]. apply to_value_type_denotes. reflexivity.
    + apply to_value_repr; reflexivity.
    + cbn [p_ld]. apply N.mod_lt. apply N.pow_nonzero. discriminate.
    + rewrite HK. cbn [bind]. eauto.
  - intros HN. destruct (Nat.eqb_spec (length r_out) (length (mp_intervals mp))) as [HL|HL]; [|reflexivity]. cbn [check bind].
    destruct (N.ltb_spec r_in (group_size mp)) as [Hr|Hr]; [|reflexivity]. cbn [check bind].
    match goal with |- bind ?a _ = _ => replace a with (@Err unit INVALID_ARGUMENT) end; [reflexivity|].
    symmetry. apply ooi_not_ok.
    + apply ooi_iterM. intros r _. apply ooi_check.
    + intros [] HI. apply HN. rewrite iterM_ok in HI. repeat split; auto. eapply Forall_impl; [|exact HI].
      intros r Hr'. cbv beta in Hr'. apply check_ok, N.ltb_lt in Hr'. exact Hr'.
Qed.
Print Assumptions C27_gen.
Example C27_nonvacuous :
  mic_create ex_F xm_mp = Ok xm_m /\ Forall u128_bounds (mp_intervals xm_mp) /\ bounds (xm_iv 3 5) 3 5 /\
  Forall (mic_generated ex_aes xm_m) xm_gs /\ map mg_in xm_gs = [13; 0] /\ map mg_out xm_gs = [[1; 15; 7]; [0; 0; 0]] /\
  (** inputs 5 (masked: 2) and 7 *)
  match mic_batch_eval ex_aes xm_m (map mg_key0 xm_gs) [2; 7], mic_batch_eval ex_aes xm_m (map mg_key1 xm_gs) [2; 7]
  return Prop with
  | Ok o0, Ok o1 => zip2 (fun a b => (a + b) mod 16) o0 o1 = [2; 0; 7; 0; 1; 1]
  | _, _ => False
  end.
Proof.
  split; [exact xm_created|]. split; [repeat constructor|].
  split; [exists (VI128 0 3), (VI128 0 5); repeat split; reflexivity|].
  split; [exact xm_generated|]. split; [reflexivity|]. split; [reflexivity|]. vm_compute. reflexivity.
Qed.

(** ** C28: parameters *)

(** An interval whose bounds are set, in the group and ordered. *)
Definition interval_ok (mp : mic_params) (i : interval) : Prop :=
  exists p q, bounds i p q /\ p <= q /\ q < group_size mp.
(** With the value_uint128 encoding, Create accepts exactly the documented parameters,
    and C27 says that the gate is one for these bounds.  Missing from C28: the other
    encoding (C28_refuted). *)
Theorem C28_create_partial : forall F mp, Forall u128_bounds (mp_intervals mp) ->
  ((1 <= mp_log mp <= 127)%Z /\ Forall (interval_ok mp) (mp_intervals mp) -> exists m, mic_create F mp = Ok m) /\
  (~ ((1 <= mp_log mp <= 127)%Z /\ Forall (interval_ok mp) (mp_intervals mp)) -> mic_create F mp = Err INVALID_ARGUMENT).
Proof.
  intros F mp HU.
  assert (HI : forall i, u128_bounds i -> (check_interval (group_size mp) i = Ok tt <-> interval_ok mp i)).
  { intros i Hu. unfold check_interval. split.
    - intros H. bind_inv H. apply check_ok in Hb. bind_inv H. apply check_ok in Hb0. bind_inv H. apply check_ok in Hb1. apply check_ok in H.
      exists (lower i), (upper i). split; [|lia]. destruct Hu as [Hu1 Hu2].
      destruct (iv_lower i) as [[| |]|] eqn:E1; try discriminate; try contradiction.
      destruct (iv_upper i) as [[| |]|] eqn:E2; try discriminate; try contradiction.
      eexists _, _. split; [exact E1|]. split; [exact E2|]. unfold lower, upper. rewrite E1, E2. split; reflexivity.
    - intros (p & q & HB & Hpq & Hq). destruct (bounds_u128 i p q Hu HB) as [<- <-]. destruct HB as (a & b & Ha & Hb & _).
      rewrite Ha, Hb. cbn [check bind]. replace (lower i <? group_size mp) with true by lia. cbn [check bind].
      replace (upper i <? group_size mp) with true by lia. cbn [check bind]. replace (upper i <? lower i) with false by lia. reflexivity. }
  assert (HIF : iterM (check_interval (group_size mp)) (mp_intervals mp) = Ok tt <-> Forall (interval_ok mp) (mp_intervals mp)).
  { rewrite iterM_ok. clear - HU HI. induction HU as [|i l Hi HU IH]; [split; constructor|].
    split; intros H; inversion H; subst; constructor; try (apply HI; auto); apply IH; auto. }
  unfold mic_create. change (2 ^ Z.to_N (mp_log mp)) with (group_size mp). split.
  - intros [Hlog HF]. replace ((mp_log mp <? 0)%Z || (127 <? mp_log mp)%Z) with false by lia. cbn [negb check bind].
    rewrite (proj2 HIF HF). cbn [bind].
    destruct (dcf_create_accepts F {| p_ld := mp_log mp; p_vt := Some (to_value_type (TInt 128)); p_sec := DFin 0 |} (TInt 128)) as (c & Hc).
    + cbn [p_ld]. lia.
    + split; [reflexivity|]. apply to_value_type_denotes. reflexivity.
    + cbn. constructor. exists 7%Z. split; [lia|reflexivity].
    + reflexivity.
    + left. reflexivity.
    + rewrite Hc. cbn [bind]. eauto.
  - intros HN. destruct ((mp_log mp <? 0)%Z || (127 <? mp_log mp)%Z) eqn:E; [reflexivity|]. cbn [negb check bind].
    assert (HO : ok_or_invalid (iterM (check_interval (group_size mp)) (mp_intervals mp))).
    { apply ooi_iterM. intros i _. unfold check_interval. repeat (apply ooi_bind; [apply ooi_check|intros _ _]). apply ooi_check. }
    destruct (iterM (check_interval (group_size mp)) (mp_intervals mp)) as [[]|e| |] eqn:EI; cbn in HO; try contradiction.
    + cbn [bind]. assert (mp_log mp = 0)%Z.
      { destruct (Z.eq_dec (mp_log mp) 0); auto. exfalso. apply HN. split; [lia|]. apply HIF. reflexivity. }
      rewrite C25_create_rejects_partial; [reflexivity|]. left. cbn [p_ld]. lia.
    + subst e. reflexivity.
Qed.
Print Assumptions C28_create_partial.
(** Bounds in value_uint64 are silently read as 0: the interval [3,5] is treated as
    [0,0], so that input 4 is not contained and input 0 is; and the interval [300,200] is
    accepted in a group of size 16. *)
Definition xb_iv (p q : N) : interval := {| iv_lower := Some (VI64 p); iv_upper := Some (VI64 q) |}.
Definition xb_mp : mic_params := {| mp_log := 4; mp_intervals := [xb_iv 3 5; xb_iv 300 200] |}.
Definition xb_m : mic := Eval vm_compute in xm_of xb_mp.
Definition xb_g : mic_pair := Eval vm_compute in xm_pair xb_m 13 [1; 2].
Theorem C28_refuted : exists aes F mp m g i j o0 o1,
  mic_create F mp = Ok m /\ mic_generated aes m g /\
  nth_error (mp_intervals mp) 0 = Some i /\ bounds i 3 5 /\
  nth_error (mp_intervals mp) 1 = Some j /\ bounds j 300 200 /\ group_size mp = 16 /\
  mic_eval aes m (mg_key0 g) ((4 + mg_in g) mod 16) = Ok o0 /\
  mic_eval aes m (mg_key1 g) ((4 + mg_in g) mod 16) = Ok o1 /\ ~ contains_shares mp g 4 o0 o1.
Proof.
  exists ex_aes, ex_F, xb_mp, xb_m, xb_g, (xb_iv 3 5), (xb_iv 300 200).
  exists ltac:(let r := eval vm_compute in (match mic_eval ex_aes xb_m (mg_key0 xb_g) ((4 + mg_in xb_g) mod 16) with Ok v => v | _ => [] end) in exact r).
  exists ltac:(let r := eval vm_compute in (match mic_eval ex_aes xb_m (mg_key1 xb_g) ((4 + mg_in xb_g) mod 16) with Ok v => v | _ => [] end) in exact r).
  split; [vm_compute; reflexivity|].
  split; [exists (2 ^ 100 + 13), (2 ^ 90 + 13), xm_rnd; vm_compute; reflexivity|].
  split; [reflexivity|]. split; [exists (VI64 3), (VI64 5); repeat split; reflexivity|].
  split; [reflexivity|]. split; [exists (VI64 300), (VI64 200); repeat split; reflexivity|].
  split; [reflexivity|]. split; [vm_compute; reflexivity|]. split; [vm_compute; reflexivity|].
  intros (_ & _ & HI).
  assert (HB : bounds (xb_iv 3 5) 3 5) by (exists (VI64 3), (VI64 5); repeat split; reflexivity).
  pose proof (HI 0%nat (xb_iv 3 5) 3 5 1 _ _ eq_refl HB eq_refl eq_refl eq_refl) as HX. vm_compute in HX. discriminate.
Qed.
Print Assumptions C28_refuted.
Example C28_nonvacuous :
  Forall u128_bounds (mp_intervals xm_mp) /\ Forall (interval_ok xm_mp) (mp_intervals xm_mp) /\
  mic_create ex_F {| mp_log := 4; mp_intervals := [xm_iv 3 16] |} = Err INVALID_ARGUMENT /\
  mic_create ex_F {| mp_log := 4; mp_intervals := [xm_iv 3 2] |} = Err INVALID_ARGUMENT /\
  mic_create ex_F {| mp_log := 4; mp_intervals := [{| iv_lower := Some (VI128 0 2); iv_upper := None |}] |} = Err INVALID_ARGUMENT /\
  mic_create ex_F {| mp_log := 0; mp_intervals := [xm_iv 0 0] |} = Err INVALID_ARGUMENT /\
  mic_create ex_F {| mp_log := 128; mp_intervals := [] |} = Err INVALID_ARGUMENT.
Proof.
  split; [repeat constructor|]. split.
  { unfold xm_mp. cbn [mp_intervals].
    apply Forall_cons; [|apply Forall_cons; [|apply Forall_cons; [|apply Forall_nil]]].
    - exists 3, 5. split; [exists (VI128 0 3), (VI128 0 5); repeat split; reflexivity|]. split; [discriminate|reflexivity].
    - exists 0, 15. split; [exists (VI128 0 0), (VI128 0 15); repeat split; reflexivity|]. split; [discriminate|reflexivity].
    - exists 7, 7. split; [exists (VI128 0 7), (VI128 0 7); repeat split; reflexivity|]. split; [discriminate|reflexivity]. }
  repeat (split; [vm_compute; reflexivity|]). vm_compute. reflexivity.
Qed.

(** ** C29: malformed keys *)

(** Mismatched sizes and points out of the group are rejected for all keys.  Keys with at
    least one output mask share per interval, whatever else they contain, do not cause
    undefined behaviour: they are accepted or rejected with INVALID_ARGUMENT, and the
    latter if a required field of the DCF key is missing.  Missing from C29: keys with too
    few shares (C29_refuted). *)
Definition malformed (mp : mic_params) (k : mic_key) : Prop :=
  k_seed (mk_dcf k) = None \/ k_last (mk_dcf k) = [] \/
  (Z.of_nat (length (k_cws (mk_dcf k))) <> mp_log mp - 1)%Z \/
  exists cw, In cw (k_cws (mk_dcf k)) /\ cw_values cw = [].
Theorem C29_rejects : forall aes F mp m keys points, mic_create F mp = Ok m ->
  length keys <> length points \/ (exists x, In x points /\ group_size mp <= x) ->
  mic_batch_eval aes m keys points = Err INVALID_ARGUMENT.
Proof.
  intros aes F mp m keys points HM H. destruct (mic_facts F mp m HM) as (Hp & _). unfold mic_batch_eval, group_of. rewrite Hp.
  change (2 ^ Z.to_N (mp_log mp)) with (group_size mp).
  destruct (Nat.eqb_spec (length keys) (length points)) as [HL|HL]; [|reflexivity]. cbn [check bind].
  destruct H as [H|(x & Hx & Hr)]; [contradiction|].
  match goal with |- bind ?a _ = _ => replace a with (@Err unit INVALID_ARGUMENT) end; [reflexivity|].
  symmetry. apply ooi_not_ok.
  - apply ooi_iterM. intros r _. apply ooi_check.
  - intros [] HI. rewrite iterM_ok, Forall_forall in HI. specialize (HI x Hx). apply check_ok, N.ltb_lt in HI. lia.
Qed.
Print Assumptions C29_rejects.
Lemma in_range_dec : forall n l, Forall (fun x => x < n) l \/ exists x, In x l /\ n <= x.
Proof.
  intros n. induction l as [|x l [IH|(y & Hy & Hr)]]; [left; constructor| |right; exists y; split; [right; auto|auto]].
  destruct (N.lt_ge_cases x n); [left; constructor; auto|right; exists x; split; [left; auto|lia]].
Qed.
Lemma malformed_rejected : forall F mp m k, mic_create F mp = Ok m -> malformed mp k ->
  ~ key_ok (dc_dpf (m_dcf m)) (mk_dcf k).
Proof.
  intros F mp m k HM H HK. destruct (mic_facts F mp m HM) as (_ & HD & Hlog & _).
  destruct (dcf_created_facts _ _ _ _ HD) as (HC & _). pose proof (proj1 (created_wf _ _ _ _ HC)) as W.
  pose proof (dcf_nlevels _ _ _ _ HD) as Hnl. cbn [p_ld] in Hnl.
  set (d := dc_dpf (m_dcf m)) in *. set (n := Z.to_nat (mp_log mp)) in *.
  assert (Hh : forall h, (h < n)%nat -> h2t d h = h).
  { intros h Hh. pose proof (wf_h2t_ld _ W h ltac:(lia)) as H1. rewrite (dcf_ld _ _ _ _ HD) in H1 by auto.
    enough (h <= h2t d h)%nat by lia. clear H1. induction h as [|h IH]; [lia|].
    pose proof (wf_h2t_mono _ W h (S h) ltac:(lia) ltac:(lia)). specialize (IH ltac:(lia)). lia. }
  assert (Hlev : d_levels d = n). { rewrite (wf_levels _ W), Hh by lia. lia. }
  unfold key_ok, validate_dpf_key in HK. bind_inv HK. apply check_ok in Hb. bind_inv HK. apply check_ok in Hb0.
  bind_inv HK. apply check_ok in Hb1. rewrite Hlev in *. destruct H as [H|[H|[H|(cw & Hcw & H)]]].
  - rewrite H in Hb. discriminate.
  - rewrite H in Hb0. discriminate.
  - lia.
  - apply In_nth_error in Hcw. destruct Hcw as (t & Ht).
    assert (Htn : (t < length (k_cws (mk_dcf k)))%nat) by (apply nth_error_Some; congruence).
    rewrite iterM_ok, Forall_forall in HK. specialize (HK t).
    rewrite <- (Hh t) in HK at 1 by lia.
    specialize (HK ltac:(unfold h2t; apply nth_In; rewrite (wf_len _ W); lia)).
    cbv beta in HK. replace (Z.of_nat t =? Z.of_nat n - 1)%Z with false in HK by lia.
    unfold at_or_ub in HK. rewrite Ht in HK. cbn [bind] in HK. apply check_ok in HK. rewrite H in HK. discriminate.
Qed.

Theorem C29_malformed_partial : forall aes F mp m keys points, mic_create F mp = Ok m ->
  Forall (fun k => (length (mp_intervals mp) <= length (mk_shares k))%nat) keys ->
  N.of_nat (length keys) * N.of_nat (length (mp_intervals mp)) * Z.to_N (mp_log mp) < 2 ^ 31 ->
  safe (mic_batch_eval aes m keys points) /\
  (forall e, mic_batch_eval aes m keys points = Err e -> e = INVALID_ARGUMENT) /\
  (mp_intervals mp <> [] -> Exists (malformed mp) keys -> mic_batch_eval aes m keys points = Err INVALID_ARGUMENT).
Proof.
  intros aes F mp m keys points HM HS HN.
  assert (HB : mic_batch_eval aes m keys points = Err INVALID_ARGUMENT \/ (length points = length keys /\ Forall (fun x => x < group_size mp) points)).
  { destruct (Nat.eq_dec (length keys) (length points)) as [HL|HL].
    2:{ left. apply (C29_rejects aes F mp m); auto. }
    destruct (in_range_dec (group_size mp) points) as [HP|HP]; [right; auto|].
    left. apply (C29_rejects aes F mp m); auto. }
  assert (HO : ok_or_invalid (mic_batch_eval aes m keys points)).
  { destruct HB as [->|[HL HP]]; [reflexivity|].
    rewrite (mic_batch_rows aes F mp m HM) by auto.
    apply ooi_bind; [|intros; exact I]. apply ooi_mapM. intros [k x] Hkx. apply ooi_mapM. intros ji Hji.
    apply in_combine_l in Hkx. rewrite Forall_forall in HS. specialize (HS k Hkx).
    apply in_ivs in Hji.
    unfold mic_task.
    apply ooi_bind; [apply (mic_evaluate_ooi aes F mp m HM); unfold x_p; apply (mod_G_lt F mp m HM)|intros ? _].
    apply ooi_bind; [apply (mic_evaluate_ooi aes F mp m HM); unfold x_q; apply (mod_G_lt F mp m HM)|intros ? _].
    apply mic_output_ooi. cbn [fst] in *. lia. }
  split; [apply ooi_safe; exact HO|]. split; [intros e He; rewrite He in HO; exact HO|].
  intros Hne Hex. apply ooi_not_ok; auto. intros out Hout. destruct HB as [HB|[HL HP]]; [congruence|].
  rewrite (mic_batch_rows aes F mp m HM) in Hout by auto. bind_inv Hout. apply mapM_ok_iff in Hb.
  apply Exists_exists in Hex. destruct Hex as (k & Hk & Hm).
  assert (HX : exists x, In (k, x) (combine keys points)).
  { clear - Hk HL. revert points HL. induction keys as [|k' keys IH]; intros [|x points] HL; try discriminate; [contradiction|].
    destruct Hk as [->|Hk]; [exists x; left; auto|]. destruct (IH Hk points) as (y & Hy); [cbn in HL; lia|]. exists y. right. auto. }
  destruct HX as (x & Hx).
  assert (HRow : exists row, mic_row aes mp m k x = Ok row).
  { clear - Hb Hx. induction Hb as [|kx row l l' H1 H2 IH]; [contradiction|]. destruct Hx as [->|Hx]; eauto. }
  destruct HRow as (row & HRow). unfold mic_row in HRow.
  destruct (mp_intervals mp) as [|i ivs] eqn:Ei; [congruence|]. cbn [length seq combine mapM] in HRow.
  bind_inv HRow. unfold mic_task in Hb0. bind_inv Hb0.
  destruct (mic_facts F mp m HM) as (_ & HD & _).
  rewrite (evaluate_invalid aes F _ [] (m_dcf m) HD (TInt 128)) in Hb1; [discriminate|].
  apply (malformed_rejected F mp); auto.
Qed.
Print Assumptions C29_malformed_partial.
(** BatchEval does not check the number of shares and reads beyond the end of the
    repeated field. *)
Definition xs_key : mic_key := {| mk_dcf := mk_dcf (mg_key0 (nth 0 xm_gs xb_g)); mk_shares := [VI128 0 1] |}.
Theorem C29_refuted : exists aes F mp m key x,
  mic_create F mp = Ok m /\ x < group_size mp /\ mic_eval aes m key x = UB.
Proof.
  exists ex_aes, ex_F, xm_mp, xm_m, xs_key, 3. split; [exact xm_created|]. split; [reflexivity|].
  vm_compute. reflexivity.
Qed.
Print Assumptions C29_refuted.
Example C29_nonvacuous :
  let k := {| mk_dcf := {| k_seed := Some 5; k_cws := []; k_party := -3; k_last := [PVUnset] |};
              mk_shares := [VIUnset; VI64 3; VI128 (2 ^ 64 - 1) (2 ^ 64 - 1); VI64 8] |} in
  malformed xm_mp k /\ (length (mp_intervals xm_mp) <= length (mk_shares k))%nat /\
  mic_eval ex_aes xm_m k 5 = Err INVALID_ARGUMENT /\
  mic_eval ex_aes xm_m (mg_key0 (nth 0 xm_gs xb_g)) 16 = Err INVALID_ARGUMENT /\
  mic_batch_eval ex_aes xm_m (map mg_key0 xm_gs) [3] = Err INVALID_ARGUMENT.
Proof.
  cbv zeta. split; [right; right; left; cbn; discriminate|]. split; [cbn; lia|].
  split; [vm_compute; reflexivity|]. split; vm_compute; reflexivity.
Qed.
