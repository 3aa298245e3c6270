(** What the keys of the comparison function evaluate to for all value types, XorWrapper
    included. *)
From Coq Require Import List NArith ZArith QArith Lia Bool ZifyBool ZifyNat ZifyN.
From Verif Require Import Base ListUtil ValueTypesModel ValueTypesSpec ValueTypesProofs
  ConvProofs BitsProofs TypeProofs DpfModel DpfTree DpfWf DpfGen DpfEval DpfPoint DpfCtx DpfApply
  DpfSpec DpfHist DpfReach DpfSafe DpfCreate DpfFacts DcfModel DcfSpec DcfProofs DcfGen.
Import ListNotations.
Ltac Zify.zify_post_hook ::= Z.div_mod_to_equations.
Open Scope N_scope.

(** Specification: the bit positions at which x has a zero and above which it agrees with
    alpha. *)
Definition zero_on_path (alpha x : N) (k : nat) : bool :=
  negb (N.testbit x (N.of_nat k)) && (x / 2 ^ N.of_nat (S k) =? alpha / 2 ^ N.of_nat (S k)).
(** Specification: how many of the positions from [lo] to [lo + m - 1] are of that kind. *)
Definition zeros_on_path (alpha x : N) (lo m : nat) : nat :=
  length (filter (zero_on_path alpha x) (seq lo m)).

(** Specification: [y] is [b] if [below] holds and zero otherwise, except for the XorWrapper
    components, which are [b] if [odd] holds and zero otherwise. *)
Inductive compares_with (below odd : bool) : cty -> pvalue -> cval -> Prop :=
| cw_int : forall w b y, (if below then repr (TInt w) b y else y = VNum 0) ->
    compares_with below odd (TInt w) b y
| cw_mod : forall w m b y, (if below then repr (TMod w m) b y else y = VNum 0) ->
    compares_with below odd (TMod w m) b y
| cw_xor : forall w b y, (if odd then repr (TXor w) b y else y = VNum 0) ->
    compares_with below odd (TXor w) b y
| cw_tup : forall ts bs ys, compare_with below odd ts bs ys ->
    compares_with below odd (TTup ts) (PVTuple bs) (VTup ys)
with compare_with (below odd : bool) : list cty -> list pvalue -> list cval -> Prop :=
| cw_nil : compare_with below odd [] [] []
| cw_cons : forall t ts b bs y ys, compares_with below odd t b y -> compare_with below odd ts bs ys ->
    compare_with below odd (t :: ts) (b :: bs) (y :: ys).

Lemma repr_num_fun : forall T b v v', (match T with TTup _ => False | _ => True end) ->
  repr T b v -> repr T b v' -> v = v'.
Proof.
  intros T b v v' HT H H'. destruct H; inversion H'; subst; try contradiction; f_equal; eapply encodes_fun; eauto.
Qed.

(** One level: [qx] and [qa] are the prefixes of x and alpha, [bx] and [ba] their next bits. *)
Lemma compares_step : forall T b s v (qx qa : N) (bx ba odd : bool), cty_ok T = true ->
  wt T s = true -> wt T v = true ->
  repr T (if ba then b else set_to_zero b) v ->
  compares_with (qx <? qa) odd T b s ->
  compares_with (2 * qx + N.b2n bx <? 2 * qa + N.b2n ba)
    (xorb odd (negb bx && (qx =? qa))) T b
    (if bx then s else vadd T s (if qx =? qa then v else vzero T)).
Proof.
  induction T as [w|w m|w|ts IH] using cty_ind'; intros b s v qx qa bx ba odd Hok Ws Wv Hv HS;
    match type of Hok with cty_ok ?T = _ =>
      assert (E0 : vadd T s (vzero T) = s) by (apply vadd_0_r; auto);
      assert (E1 : vadd T (vzero T) v = v) by (apply vadd_0_l; auto) end.
  1,2: inversion HS; subst; constructor;
    assert (Hz : ba = false -> v = VNum 0)
      by (intros Eb; rewrite Eb in Hv; destruct b; cbn [set_to_zero] in Hv; inversion Hv; subst; cbn in *; subst; reflexivity);
    match goal with H : if (_ <? _) then _ else _ |- _ => rename H into HH end;
    destruct (N.ltb_spec qx qa) as [Hlt|Hge];
    [ replace (2 * qx + N.b2n bx <? 2 * qa + N.b2n ba) with true by (destruct bx, ba; cbn [N.b2n]; lia);
      replace (qx =? qa) with false by lia; rewrite E0; destruct bx; exact HH
    | cbn [vzero] in E1, E0; subst s; destruct (N.eqb_spec qx qa) as [E|E];
      [ destruct bx; [replace (2 * qx + N.b2n true <? 2 * qa + N.b2n ba) with false by (destruct ba; cbn [N.b2n]; lia); reflexivity|];
        rewrite E1; destruct ba;
        [ replace (2 * qx + N.b2n false <? 2 * qa + N.b2n true) with true by (cbn [N.b2n]; lia); exact Hv
        | replace (2 * qx + N.b2n false <? 2 * qa + N.b2n false) with false by (cbn [N.b2n]; lia); apply Hz; reflexivity ]
      | replace (2 * qx + N.b2n bx <? 2 * qa + N.b2n ba) with false by (destruct bx, ba; cbn [N.b2n]; lia);
        cbn [vzero]; rewrite E0; destruct bx; reflexivity ] ].
  - inversion HS as [| |? ? ? HH|]; subst. constructor.
    assert (Hv' : repr (TXor w) b v) by (destruct ba; auto; destruct b; cbn [set_to_zero] in Hv; inversion Hv; subst; auto).
    destruct bx; cbn [negb andb]; [rewrite xorb_false_r; exact HH|].
    destruct (qx =? qa); [|rewrite E0, xorb_false_r; exact HH]. rewrite xorb_true_r.
    destruct odd; cbn [negb].
    + rewrite (repr_num_fun (TXor w) b s v I HH Hv'). destruct v as [z|]; [cbn [vadd]; rewrite N.lxor_nilpotent; reflexivity|discriminate].
    + subst s. cbn [vzero] in E1. rewrite E1. exact Hv'.
  - inversion HS as [| | |ts' bs ys HSs]; subst. clear HS.
    destruct v as [|vs]; [discriminate|]. cbn [wt] in Ws, Wv.
    apply cty_ok_tup in Hok. destruct Hok as [_ Hok]. clear E0 E1.
    assert (Hv' : reprs ts (if ba then bs else map set_to_zero bs) vs).
    { destruct ba; cbn [set_to_zero] in Hv; inversion Hv; subst; assumption. }
    clear Hv.
    replace (if bx then VTup ys else vadd (TTup ts) (VTup ys) (if qx =? qa then VTup vs else vzero (TTup ts)))
      with (VTup (if bx then ys else zip3 vadd ts ys (if qx =? qa then vs else map vzero ts)))
      by (destruct bx, (qx =? qa); reflexivity).
    constructor. revert bs ys vs HSs Hv' Ws Wv.
    induction ts as [|t ts IHts]; intros bs ys vs HSs Hv' Ws Wv.
    + inversion HSs; subst. destruct bx, (qx =? qa), vs; constructor.
    + inversion HSs as [|? ? b bs' y ys' Hh Ht]; subst. inv IH. inv Hok.
      destruct vs as [|v vs]; [discriminate|]. cbn [all2] in Ws, Wv. apply andb_true_iff in Ws, Wv.
      destruct Ws as [Ws1 Ws2], Wv as [Wv1 Wv2].
      assert (Hv1 : repr t (if ba then b else set_to_zero b) v /\ reprs ts (if ba then bs' else map set_to_zero bs') vs)
        by (destruct ba; cbn [map] in Hv'; inversion Hv'; subst; auto).
      destruct Hv1 as [Hv1 Hv2].
      replace (if bx then y :: ys' else zip3 vadd (t :: ts) (y :: ys') (if qx =? qa then v :: vs else map vzero (t :: ts)))
        with ((if bx then y else vadd t y (if qx =? qa then v else vzero t))
              :: (if bx then ys' else zip3 vadd ts ys' (if qx =? qa then vs else map vzero ts)))
        by (destruct bx, (qx =? qa); reflexivity).
      constructor; [apply H1|apply IHts]; auto.
Qed.

(** Before the first level. *)
Lemma compares_start : forall T b v (ba : bool), repr T (if ba then b else set_to_zero b) v ->
  compares_with false false T b (vzero T).
Proof.
  induction T as [w|w m|w|ts IH] using cty_ind'; intros b v ba Hv; try (constructor; reflexivity).
  assert (HX : exists bs vs, b = PVTuple bs /\ reprs ts (if ba then bs else map set_to_zero bs) vs).
  { destruct b; destruct ba; cbn [set_to_zero] in Hv; inversion Hv; subst; eauto. }
  destruct HX as (bs & vs & -> & HR). constructor. clear Hv. revert bs vs HR.
  induction ts as [|t ts IHts]; intros bs vs HR.
  - destruct bs as [|? ?]; [constructor|]. destruct ba; inversion HR.
  - destruct bs as [|b bs]; [destruct ba; inversion HR|]. inv IH. cbn [map].
    assert (HX : exists v vs', repr t (if ba then b else set_to_zero b) v /\ reprs ts (if ba then bs else map set_to_zero bs) vs')
      by (destruct ba; cbn [map] in HR; inversion HR; subst; eauto).
    destruct HX as (v' & vs' & Hv & Hvs). constructor; eauto.
Qed.

(** Specification: [b] is built like a value of type [T]; only its XorWrapper components have
    to be in range. *)
Inductive like_value : cty -> pvalue -> Prop :=
| lv_int : forall w i, like_value (TInt w) (PVInteger i)
| lv_mod : forall w m i, like_value (TMod w m) (PVIntModN i)
| lv_xor : forall w i x, encodes i x -> x < 2 ^ w -> like_value (TXor w) (PVXor i)
| lv_tup : forall ts bs, Forall2 like_value ts bs -> like_value (TTup ts) (PVTuple bs).

Lemma like_value_iff : forall T b, cty_ok T = true ->
  like_value T b <-> exists v, repr T (set_to_zero b) v.
Proof.
  induction T as [w|w m|w|ts IH] using cty_ind'; intros b Hok.
  - split.
    + intros H. inversion H; subst. exists (VNum 0). constructor; [reflexivity|]. lia.
    + intros (v & H). destruct b; cbn [set_to_zero] in H; inversion H; subst. constructor.
  - split.
    + intros H. inversion H; subst. exists (VNum 0). constructor; [reflexivity|]. cbn [cty_ok] in Hok. lia.
    + intros (v & H). destruct b; cbn [set_to_zero] in H; inversion H; subst. constructor.
  - split.
    + intros H. inversion H; subst. cbn [set_to_zero]. eexists. econstructor; eauto.
    + intros (v & H). destruct b; cbn [set_to_zero] in H; inversion H; subst. econstructor; eauto.
  - apply cty_ok_tup in Hok. destruct Hok as [_ Hok].
    assert (HX : forall bs, Forall2 like_value ts bs <-> exists vs, reprs ts (map set_to_zero bs) vs).
    { induction ts as [|t ts IHts]; intros bs.
      - split.
        + intros H. inv H. exists []. constructor.
        + intros (vs & H). destruct bs; [constructor|inversion H].
      - inv IH. inv Hok. split.
        + intros H. inv H. destruct (proj1 (H1 _ H3) H6) as (v & Hv). destruct (proj1 (IHts H2 H4 _) H8) as (vs & Hvs).
          exists (v :: vs). constructor; auto.
        + intros (vs & H). destruct bs as [|b' bs]; inversion H; subst. constructor; [apply H1; eauto|apply IHts; eauto]. }
    split.
    + intros H. inversion H as [| | |? bs HF]; subst. cbn [set_to_zero]. destruct (proj1 (HX _) HF) as (vs & Hvs). exists (VTup vs). constructor. exact Hvs.
    + intros (v & H). destruct b; cbn [set_to_zero] in H; inversion H; subst. constructor. apply HX. eauto.
Qed.

Section Gen.
Variable aes : N -> N -> N.
Variables (F : fops) (p : param) (types : list cty) (c : dcf).
Hypothesis HD : dcf_created F p types c.
Let d := dc_dpf c.
Let ps := dcf_dpf_parameters p.
Let n := Z.to_nat (p_ld p).
Let HC : created F ps types d := proj1 (dcf_created_facts F p types c HD).
Let W : wf d := proj1 (created_wf _ _ _ _ HC).
Hypothesis Hn128 : (p_ld p <= 128)%Z.
Variables (alpha : N) (beta : pvalue) (seed0 seed1 : N) (k0 k1 : dkey).
Hypothesis Ha : alpha < P128.
Hypothesis HG : dcf_generate_keys aes c alpha beta seed0 seed1 = Ok (k0, k1).
Let values := map (fun i => if N.testbit alpha (N.of_nat (n - i - 1)) then beta else set_to_zero beta) (seq 0 n).
Variable T : cty.
Hypothesis HT : dcf_has p T.

Definition level_sum (x : N) (h : nat) (s : cval) : Prop :=
  compares_with (x / 2 ^ N.of_nat (n - h) <? alpha / 2 ^ N.of_nat (n - h))
    (Nat.odd (zeros_on_path alpha x (n - h) h)) T beta s.

Lemma level_loops : forall x, x < 2 ^ N.of_nat n -> forall m h o0 o1, (h + m = n)%nat ->
  wt T o0 = true -> wt T o1 = true -> level_sum x h (vadd T o0 o1) ->
  exists r0 r1, key_loop aes p c T m h k0 x o0 = Ok r0 /\ key_loop aes p c T m h k1 x o1 = Ok r1 /\
    wt T r0 = true /\ wt T r1 = true /\ level_sum x n (vadd T r0 r1).
Proof.
  intros x Hx. destruct HT as [Hok HDn].
  destruct (dcf_gen_keys aes F p types c HD Hn128 alpha beta seed0 seed1 k0 k1 Ha HG) as [HGen Ha2].
  induction m as [|m IH]; intros h o0 o1 Hm W0 W1 HS.
  - cbn [key_loop]. replace h with n in HS by lia. eauto 8.
  - cbn [key_loop]. assert (Hh : (h < n)%nat) by (clear - Hm; lia).
    assert (HLT : level_type d h T).
    { eapply level_has_type; [exact HC|]. apply (dcf_level_has p T); auto. }
    destruct (share_sum aes d W (alpha / 2) values seed0 seed1 k0 k1 Ha2 HGen h T HLT)
      as (b & v & corrs & Hb & Hr & Wv & _ & H0 & H1 & HSum).
    unfold key_value. fold d. rewrite H0, H1. cbn [bind].
    set (px := level_point d 1 h x).
    assert (Epx : px = x / 2 ^ N.of_nat (n - h)).
    { unfold px, level_point. unfold d. rewrite (dcf_ld_last F p types c HD), (dcf_ld F p types c HD) by auto. fold n.
      rewrite N.shiftr_div_pow2. do 3 f_equal. clear - Hh. lia. }
    assert (Hpx : px < 2 ^ N.of_nat (ld d h)).
    { unfold d. rewrite (dcf_ld F p types c HD) by auto. rewrite Epx. apply N.div_lt_upper_bound; [apply N.pow_nonzero; discriminate|].
      rewrite <- N.pow_add_r. replace (N.of_nat (n - h) + N.of_nat h) with (N.of_nat n) by (clear - Hh; lia). exact Hx. }
    destruct (HSum px Hpx) as (WS0 & WS1 & ES). fold px.
    set (v0 := share aes d T k0 h corrs px) in *. set (v1 := share aes d T k1 h corrs px) in *.
    assert (Epa : N.shiftr (alpha / 2) (N.of_nat (ld_last d - ld d h)) = alpha / 2 ^ N.of_nat (n - h)).
    { unfold d. rewrite (dcf_ld_last F p types c HD), (dcf_ld F p types c HD) by auto. fold n.
      rewrite N.shiftr_div_pow2. replace (N.of_nat (n - h)) with (1 + N.of_nat (n - 1 - h)) by (clear - Hh; lia).
      rewrite N.pow_add_r. change (2 ^ 1) with 2. rewrite N.div_div by (try apply N.pow_nonzero; discriminate). reflexivity. }
    rewrite Epa, Epx in ES.
    assert (Eb : b = if N.testbit alpha (N.of_nat (n - h - 1)) then beta else set_to_zero beta).
    { unfold values in Hb. rewrite nth_error_map_some with (a := h) in Hb.
      - clear - Hb. congruence.
      - rewrite nth_error_seq by auto. reflexivity. }
    subst b.
    assert (HR : forall o0' o1', wt T o0' = true -> wt T o1' = true ->
        level_sum x (S h) (vadd T o0' o1') ->
        exists r0 r1, key_loop aes p c T m (S h) k0 x o0' = Ok r0 /\ key_loop aes p c T m (S h) k1 x o1' = Ok r1 /\
          wt T r0 = true /\ wt T r1 = true /\ level_sum x n (vadd T r0 r1)).
    { intros. apply IH; auto. clear - Hm. lia. }
    apply HR.
    + unfold acc_value. destruct (N.testbit x _); auto using vadd_wt.
    + unfold acc_value. destruct (N.testbit x _); auto using vadd_wt.
    + clear HR IH HSum. unfold level_sum in *.
      pose proof (compares_step T beta (vadd T o0 o1) v (x / 2 ^ N.of_nat (n - h)) (alpha / 2 ^ N.of_nat (n - h))
        (N.testbit x (N.of_nat (n - h - 1))) (N.testbit alpha (N.of_nat (n - h - 1)))
        (Nat.odd (zeros_on_path alpha x (n - h) h)) Hok (vadd_wt T o0 o1 Hok W0 W1) Wv Hr HS) as HX.
      pose proof (div_pow_step x (n - h - 1)) as Sx. pose proof (div_pow_step alpha (n - h - 1)) as Sa.
      replace (S (n - h - 1)) with (n - h)%nat in Sx, Sa by (clear - Hh; lia).
      rewrite <- Sx, <- Sa in HX. replace (n - S h)%nat with (n - h - 1)%nat by (clear; lia).
      replace (Nat.odd (zeros_on_path alpha x (n - h - 1) (S h))) with
        (xorb (Nat.odd (zeros_on_path alpha x (n - h) h))
           (negb (N.testbit x (N.of_nat (n - h - 1))) && (x / 2 ^ N.of_nat (n - h) =? alpha / 2 ^ N.of_nat (n - h)))).
      2:{ unfold zeros_on_path. cbn [seq filter]. replace (S (n - h - 1)) with (n - h)%nat by (clear - Hh; lia).
          unfold zero_on_path at 2. replace (S (n - h - 1)) with (n - h)%nat by (clear - Hh; lia).
          destruct (negb _ && _); [|rewrite xorb_false_r; reflexivity].
          cbn [length]. rewrite Nat.odd_succ, <- Nat.negb_odd, xorb_true_r. reflexivity. }
      replace (vadd T (acc_value p T x h o0 v0) (acc_value p T x h o1 v1))
        with (if N.testbit x (N.of_nat (n - h - 1)) then vadd T o0 o1
              else vadd T (vadd T o0 o1) (if x / 2 ^ N.of_nat (n - h) =? alpha / 2 ^ N.of_nat (n - h) then v else vzero T)).
      * exact HX.
      * unfold acc_value. change (Z.to_nat (p_ld p)) with n. destruct (N.testbit x _); [reflexivity|].
        rewrite vadd_4 by auto. rewrite ES. reflexivity.
Qed.

Theorem dcf_shares_exact : forall x, x < 2 ^ N.of_nat n ->
  exists r0 r1 y, dcf_evaluate aes c T k0 x = Ok r0 /\ dcf_evaluate aes c T k1 x = Ok r1 /\
    gsum T r0 r1 y /\ compares_with (x <? alpha) (Nat.odd (zeros_on_path alpha x 0 n)) T beta y.
Proof.
  intros x Hx. pose proof HT as [Hok HDn].
  destruct (dcf_key_oks aes F p types c HD Hn128 alpha beta seed0 seed1 k0 k1 Ha HG) as [HK0 HK1].
  destruct (dcf_gen_keys aes F p types c HD Hn128 alpha beta seed0 seed1 k0 k1 Ha HG) as [HGen Ha2].
  assert (Hx' : x < P128).
  { eapply N.lt_le_trans; [exact Hx|]. change P128 with (2 ^ 128). apply N.pow_le_mono_r; [discriminate|]. unfold n. lia. }
  pose proof (dcf_enough aes F p types c HD Hn128 alpha beta seed0 seed1 k0 k1 Ha HG T HT) as HE.
  rewrite !(evaluate_valid_eq aes F p types c HD T HT Hn128) by auto.
  destruct (level_loops x Hx n 0 (vzero T) (vzero T)) as (r0 & r1 & H0 & H1 & W0 & W1 & HS); auto using vzero_wt.
  - rewrite vadd_0_r by auto using vzero_wt. unfold level_sum. rewrite Nat.sub_0_r.
    pose proof (dcf_alpha_lt aes F p types c HD Hn128 alpha beta seed0 seed1 k0 k1 Ha HG) as Hal. fold n in Hal.
    rewrite (N.div_small alpha) by exact Hal. rewrite (N.div_small x) by exact Hx. cbn [N.ltb N.compare zeros_on_path seq filter length Nat.odd Nat.even negb].
    pose proof (dcf_n_pos F p types c HD) as Hp. fold n in Hp.
    assert (HLT : level_type d 0 T).
    { eapply level_has_type; [exact HC|]. apply (dcf_level_has p T); auto. }
    destruct (share_sum aes d W (alpha / 2) values seed0 seed1 k0 k1 Ha2 HGen 0%nat T HLT)
      as (b & v & corrs & Hb & Hr & _).
    unfold values in Hb. rewrite nth_error_map_some with (a := 0%nat) in Hb by (rewrite nth_error_seq by auto; reflexivity).
    inv Hb. eapply compares_start. exact Hr.
  - exists r0, r1, (vadd T r0 r1). split; auto. split; auto. split; [apply vadd_gsum; auto|].
    unfold level_sum in HS. replace (n - n)%nat with 0%nat in HS by (clear; lia).
    change (2 ^ N.of_nat 0) with 1 in *. rewrite !N.div_1_r in *. exact HS.
Qed.

End Gen.

(** ** Arguments of GenerateKeys *)

(** Specification: what GenerateKeys accepts. *)
Definition dcf_accepts (p : param) (T : cty) (alpha : N) (beta : pvalue) : Prop :=
  alpha < 2 ^ Z.to_N (p_ld p) /\
  (alpha = 0 /\ like_value T beta \/ alpha <> 0 /\ exists v, repr T beta v).

Lemma dcf_args_iff : forall F p types c T alpha beta, dcf_created F p types c -> dcf_has p T ->
  dcf_accepts p T alpha beta <->
  keygen_args (dcf_dpf_parameters p) (alpha / 2)
    (map (fun i => if N.testbit alpha (N.of_nat (Z.to_nat (p_ld p) - i - 1)) then beta else set_to_zero beta)
         (seq 0 (Z.to_nat (p_ld p)))).
Proof.
  intros F p types c T alpha beta HD HT. pose proof HT as [Hok HDn].
  set (n := Z.to_nat (p_ld p)). pose proof (dcf_n_pos F p types c HD) as Hp. fold n in Hp.
  set (f := fun i => if N.testbit alpha (N.of_nat (n - i - 1)) then beta else set_to_zero beta).
  assert (Hdom : alpha < 2 ^ Z.to_N (p_ld p) <-> alpha / 2 < 2 ^ last_ld (dcf_dpf_parameters p)).
  { rewrite (dcf_last_ld F p types c HD). fold n.
    replace (Z.to_N (p_ld p)) with (N.of_nat (n - 1) + 1) by (unfold n in *; lia). rewrite N.pow_add_r. change (2 ^ 1) with 2.
    set (y := 2 ^ N.of_nat (n - 1)). clearbody y. clear. lia. }
  assert (HLev : Forall2 (fun q b => exists T v, cty_ok T = true /\ denotes (p_type q) T /\ repr T b v)
                   (dcf_dpf_parameters p) (map f (seq 0 n))
                 <-> forall i, (i < n)%nat -> exists v, repr T (f i) v).
  { unfold dcf_dpf_parameters. fold n. split.
    - intros HF i Hi.
      assert (HX : forall l, Forall2 (fun q b => exists T v, cty_ok T = true /\ denotes (p_type q) T /\ repr T b v)
          (map (fun i => {| p_ld := Z.of_nat i; p_vt := Some (p_type p); p_sec := DFin 0 |}) l) (map f l) ->
          Forall (fun i => exists v, repr T (f i) v) l).
      { clear - HDn. induction l as [|a l IH]; intros H; [constructor|]. cbn [map] in H. inversion H as [|? ? ? ? (T' & v & _ & HDn' & Hv) H']; subst.
        change (p_type {| p_ld := Z.of_nat a; p_vt := Some (p_type p); p_sec := DFin 0 |}) with (p_type p) in HDn'.
        rewrite (denotes_fun _ _ _ HDn' HDn) in Hv. constructor; [eauto|apply IH; assumption]. }
      apply HX in HF. rewrite Forall_forall in HF. apply HF. apply in_seq. clear - Hi. lia.
    - intros H. assert (HX : Forall (fun i => exists v, repr T (f i) v) (seq 0 n)).
      { apply Forall_forall. intros i Hi. apply in_seq in Hi. apply H. clear - Hi. lia. }
      induction HX as [|a l (v & Hv) HX IH]; cbn [map]; constructor; auto. exists T, v. split; [exact Hok|]. split; [exact HDn|exact Hv]. }
  unfold keygen_args, dcf_accepts. rewrite HLev, <- Hdom. clear HLev.
  assert (HLog : alpha <> 0 -> alpha < 2 ^ Z.to_N (p_ld p) -> exists i, (i < n)%nat /\ f i = beta).
  { intros Hnz Hal. assert (Hlog : N.log2 alpha < N.of_nat n).
    { apply N.log2_lt_pow2; [clear - Hnz; lia|]. replace (N.of_nat n) with (Z.to_N (p_ld p)) by (unfold n; clear; lia). exact Hal. }
    exists (n - 1 - N.to_nat (N.log2 alpha))%nat. split; [clear - Hp; lia|]. unfold f.
    replace (N.of_nat (n - (n - 1 - N.to_nat (N.log2 alpha)) - 1)) with (N.log2 alpha) by (clear - Hlog; lia).
    rewrite N.bit_log2 by exact Hnz. reflexivity. }
  split.
  - intros [Hal [[-> HL]|[Hnz (v & Hv)]]]; (split; [|exact Hal]); intros i Hi.
    + unfold f. rewrite N.bits_0. apply like_value_iff; auto.
    + unfold f. destruct (N.testbit _ _); eauto using set_to_zero_repr_xor.
  - intros [H Hal]. split; [exact Hal|]. destruct (N.eq_dec alpha 0) as [->|Hnz].
    + left. split; [reflexivity|]. apply like_value_iff; auto. specialize (H 0%nat Hp). unfold f in H. rewrite N.bits_0 in H. exact H.
    + right. split; [exact Hnz|]. destruct (HLog Hnz Hal) as (i & Hi & E). specialize (H i Hi). rewrite E in H. exact H.
Qed.

Theorem dcf_keygen_exact : forall aes F p types c T alpha beta seed0 seed1,
  dcf_created F p types c -> (p_ld p <= 128)%Z -> dcf_registered p types ->
  Forall (roomy (dcf_dpf_parameters p) (dc_dpf c)) types -> dcf_has p T -> alpha < P128 ->
  (dcf_accepts p T alpha beta -> exists k0 k1, dcf_generate_keys aes c alpha beta seed0 seed1 = Ok (k0, k1)) /\
  (~ dcf_accepts p T alpha beta -> dcf_generate_keys aes c alpha beta seed0 seed1 = Err INVALID_ARGUMENT).
Proof.
  intros aes F p types c T alpha beta seed0 seed1 HD Hn HR HS HT Ha.
  pose proof (dcf_created_facts F p types c HD) as (HC & Hpar & H1).
  unfold dcf_generate_keys. rewrite Hpar, (dcf_values_ok p Hn). cbn [bind].
  rewrite N.shiftr_div_pow2. change (2 ^ 1) with 2. rewrite (dcf_args_iff F p types c T alpha beta HD HT).
  split; intros H.
  - apply (keygen_accepts aes F _ types (dc_dpf c) HC (dcf_registered_ps _ _ HR) HS). exact H.
  - apply (keygen_rejects aes F _ types (dc_dpf c) HC (dcf_registered_ps _ _ HR) HS); [clear - Ha; lia|exact H].
Qed.
