(** The multiple interval containment gate. *)
From Coq Require Import List NArith ZArith QArith Lia Bool ZifyBool ZifyNat ZifyN.
From Verif Require Import Base ListUtil ValueTypesModel ValueTypesSpec ValueTypesProofs
  ConvProofs BitsProofs TypeProofs DpfModel DpfTree DpfWf DpfGen DpfEval DpfPoint DpfCtx DpfApply
  DpfSpec DpfHist DpfReach DpfSafe DpfCreate DpfFacts DcfModel DcfSpec DcfProofs DcfGen.
Import ListNotations.
Ltac Zify.zify_post_hook ::= Z.div_mod_to_equations.
Open Scope N_scope.

Definition zb (b : bool) : Z := if b then 1%Z else 0%Z.

Lemma mod_wrap : forall a N, (0 < N -> 0 <= a < 2 * N ->
  exists m, a mod N = m /\ ((a < N /\ m = a) \/ (N <= a /\ m = a - N)))%Z.
Proof.
  intros a N HN Ha. exists (a mod N)%Z. split; auto. destruct (Z.lt_ge_cases a N).
  - left. split; auto. apply Z.mod_small. lia.
  - right. split; auto. symmetry. apply Z.mod_unique with (q := 1%Z); lia.
Qed.

(** The identity behind the correction term. *)
Lemma mic_identity : forall N p q r x, (1 < N -> 0 <= p -> p <= q -> q < N -> 0 <= r < N -> 0 <= x < N ->
  let xm := (x + r) mod N in
  let q' := (q + 1) mod N in
  let g := (N - 1 + r) mod N in
  zb (p <? xm) - zb (q' <? xm)
  - zb ((xm + N - 1 - p) mod N <? g) + zb ((xm + N - 1 - q') mod N <? g)
  + zb ((q + r) mod N <? (p + r) mod N) - zb (p <? (p + r) mod N) + zb (q' <? (q + 1 + r) mod N)
  + zb ((q + r) mod N =? N - 1)
  = zb ((p <=? x) && (x <=? q)))%Z.
Proof.
  intros N p q r x HN Hp Hpq Hq Hr Hx. cbv zeta.
  destruct (mod_wrap (x + r) N) as (xm & -> & Hxm); [lia|lia|].
  destruct (mod_wrap (q + 1) N) as (q' & -> & Hq'); [lia|lia|].
  destruct (mod_wrap (N - 1 + r) N) as (g & -> & Hg); [lia|lia|].
  destruct (mod_wrap (xm + N - 1 - p) N) as (xp & -> & Hxp); [lia|lia|].
  destruct (mod_wrap (xm + N - 1 - q') N) as (xq & -> & Hxq); [lia|lia|].
  destruct (mod_wrap (q + r) N) as (aq & -> & Haq); [lia|lia|].
  destruct (mod_wrap (p + r) N) as (ap & -> & Hap); [lia|lia|].
  assert (Haq1 : ((q + 1 + r) mod N = (if aq =? N - 1 then 0 else aq + 1))%Z).
  { destruct (Z.eqb_spec aq (N - 1)).
    - symmetry. apply Z.mod_unique with (q := if (q + 1 + r =? N)%Z then 1%Z else 2%Z); destruct (Z.eqb_spec (q + 1 + r) N); lia.
    - symmetry. apply Z.mod_unique with (q := if (q + 1 + r <? N)%Z then 0%Z else 1%Z); destruct (Z.ltb_spec (q + 1 + r) N); lia. }
  rewrite Haq1. clear Haq1.
  destruct Hxm as [[? ->]|[? ->]]; destruct Hq' as [[? ->]|[? ->]]; destruct Hg as [[? ->]|[? ->]]; try lia;
  destruct Hap as [[? ->]|[? ->]]; destruct Haq as [[? ->]|[? ->]]; try lia;
  destruct Hxp as [[? ->]|[? ->]]; destruct Hxq as [[? ->]|[? ->]]; try lia.
  all: match goal with |- context [(if (?a =? ?b)%Z then 0 else _)%Z] => destruct (Z.eqb_spec a b); try lia end.
  all: repeat match goal with
    | |- context [(?a <? ?b)%Z] => destruct (Z.ltb_spec a b); try lia
    | |- context [(?a <=? ?b)%Z] => destruct (Z.leb_spec a b); try lia
    end; cbn [zb andb]; try lia.
Qed.

Lemma mapM_app : forall A B (f : A -> res B) l l',
  mapM f (l ++ l') = (r <- mapM f l ;; r' <- mapM f l' ;; Ok (r ++ r')).
Proof.
  intros A B f. induction l as [|a l IH]; intros l'; cbn [app mapM bind].
  - destruct (mapM f l'); reflexivity.
  - destruct (f a); cbn [bind]; auto. rewrite IH. destruct (mapM f l); cbn [bind]; auto. destruct (mapM f l'); reflexivity.
Qed.
Lemma mapM_flat : forall A B C (f : B -> res C) (g : A -> list B) l,
  mapM f (flat_map g l) = (rows <- mapM (fun a => mapM f (g a)) l ;; Ok (concat rows)).
Proof.
  intros A B C f g. induction l as [|a l IH]; cbn [flat_map mapM bind]; auto.
  rewrite mapM_app, IH. destruct (mapM f (g a)); cbn [bind]; auto. destruct (mapM _ l); cbn [bind]; auto.
Qed.
Lemma mapM_map_l : forall A B C (f : B -> res C) (g : A -> B) l, mapM f (map g l) = mapM (fun a => f (g a)) l.
Proof. intros A B C f g. induction l as [|a l IH]; cbn [map mapM]; auto. rewrite IH. reflexivity. Qed.
Lemma combine_map2 : forall A B C (f : A -> B) (g : A -> C) l, combine (map f l) (map g l) = map (fun a => (f a, g a)) l.
Proof. induction l as [|a l IH]; cbn [map combine]; auto. rewrite IH. reflexivity. Qed.

Section Mic.
Variable aes : N -> N -> N.
Variables (F : fops) (mp : mic_params) (m : mic).
Hypothesis HM : mic_create F mp = Ok m.
Let p : param := {| p_ld := mp_log mp; p_vt := Some (to_value_type (TInt 128)); p_sec := DFin 0 |}.
Let ivs := mp_intervals mp.
Let G := 2 ^ Z.to_N (mp_log mp).

Lemma mic_facts : m_params m = mp /\ dcf_created F p [] (m_dcf m) /\ (1 <= mp_log mp <= 127)%Z /\
  Forall (fun i => (exists a b, iv_lower i = Some a /\ iv_upper i = Some b) /\ lower i <= upper i /\ upper i < G) ivs.
Proof using HM.
  clear aes. pose proof HM as H. unfold mic_create in H. bind_inv H. apply check_ok in Hb. bind_inv H. destruct a0. bind_inv H.
  inv H. cbn [m_params m_dcf]. split; auto.
  assert (HD : dcf_created F p [] a0) by (exists a0; repeat split; auto).
  split; auto. split.
  - pose proof (proj2 (proj2 (dcf_created_facts _ _ _ _ HD))) as H1. unfold p in H1. cbn [p_ld] in H1. lia.
  - rewrite iterM_ok in Hb0. eapply Forall_impl; [|exact Hb0]. intros i Hi. cbv beta in Hi. unfold check_interval in Hi.
    bind_inv Hi. apply check_ok in Hb2. bind_inv Hi. apply check_ok in Hb3. bind_inv Hi. apply check_ok in Hb4. apply check_ok in Hi.
    fold G in Hb3, Hb4. split; [|lia].
    destruct (iv_lower i); [|discriminate]. destruct (iv_upper i); [|discriminate]. eauto.
Qed.

Lemma mic_has : dcf_has p (TInt 128).
Proof. split; [reflexivity|]. apply to_value_type_denotes. reflexivity. Qed.
Lemma mic_ld : (p_ld p <= 128)%Z.
Proof using HM. pose proof (proj1 (proj2 (proj2 mic_facts))) as H. unfold p. cbn [p_ld]. clear - H. lia. Qed.
Lemma G_div : exists k, P128 = k * G /\ 1 < G /\ G <= 2 ^ 127.
Proof using HM.
  pose proof (proj1 (proj2 (proj2 mic_facts))) as H. exists (2 ^ (128 - Z.to_N (mp_log mp))). unfold G. split.
  - rewrite <- N.pow_add_r. replace (128 - Z.to_N (mp_log mp) + Z.to_N (mp_log mp)) with 128 by (clear - H; lia). reflexivity.
  - split.
    + change 1 with (2 ^ 0). apply N.pow_lt_mono_r; clear - H; lia.
    + apply N.pow_le_mono_r; clear - H; lia.
Qed.

(** The evaluation of one interval and of one key. *)
Definition x_p (x : N) (i : interval) : N := w128 (x + G - 1 + (P128 - lower i)) mod G.
Definition x_q (x : N) (i : interval) : N := w128 (x + G - 1 + (P128 - w128 (upper i + 1) mod G)) mod G.
Definition mic_task (k : mic_key) (x : N) (ji : nat * interval) : res N :=
  sp <- dcf_evaluate aes (m_dcf m) (TInt 128) (mk_dcf k) (x_p x (snd ji)) ;;
  sq <- dcf_evaluate aes (m_dcf m) (TInt 128) (mk_dcf k) (x_q x (snd ji)) ;;
  mic_output G x k (snd ji) (fst ji) (vnum sp) (vnum sq).
Definition mic_row (k : mic_key) (x : N) : res (list N) :=
  mapM (mic_task k x) (combine (seq 0 (length ivs)) ivs).

Lemma mod_G_lt : forall x, x mod G < P128.
Proof using HM.
  intros x. destruct G_div as (k & _ & H1 & H2). eapply N.lt_le_trans; [apply N.mod_lt; clear - H1; lia|].
  eapply N.le_trans; [exact H2|]. discriminate.
Qed.

Lemma mic_batch : forall keys points output, length points = length keys -> length output = length keys ->
  Forall (fun x => x < P128) points -> N.of_nat (length keys) * Z.to_N (mp_log mp) < 2 ^ 31 ->
  dcf_batch_evaluate aes (m_dcf m) (TInt 128) keys points output
  = mapM (fun kx : dkey * N => dcf_evaluate aes (m_dcf m) (TInt 128) (fst kx) (snd kx)) (combine keys points).
Proof.
  intros keys points output H1 H2 H3 H4. pose proof mic_facts as (_ & HD & _).
  apply (batch_is_single aes F p [] (m_dcf m) HD (TInt 128) mic_has mic_ld); auto.
  - unfold p. cbn [p_ld]. replace (N.of_nat (Z.to_nat (mp_log mp))) with (Z.to_N (mp_log mp)) by (clear; lia). exact H4.
  - intros h Hh. apply (shaped F (dcf_dpf_parameters p) [] (dc_dpf (m_dcf m))); auto.
    + apply (proj1 (dcf_created_facts F p [] (m_dcf m) HD)).
    + apply dcf_level_has; auto. apply mic_has.
Qed.

Lemma mic_evaluate_ooi : forall k x, x < P128 -> ok_or_invalid (dcf_evaluate aes (m_dcf m) (TInt 128) k x).
Proof.
  intros k x Hx. pose proof mic_facts as (_ & HD & _).
  destruct (validate_dpf_key (dc_dpf (m_dcf m)) k) as [[]| | |] eqn:E.
  - rewrite (evaluate_valid_eq aes F p [] (m_dcf m) HD (TInt 128) mic_has mic_ld); auto using key_loop_ooi.
    intros h Hh. apply (shaped F (dcf_dpf_parameters p) [] (dc_dpf (m_dcf m))); auto.
    + apply (proj1 (dcf_created_facts F p [] (m_dcf m) HD)).
    + apply dcf_level_has; auto. apply mic_has.
  - rewrite (evaluate_invalid aes F p [] (m_dcf m) HD (TInt 128)); [reflexivity|unfold key_ok; congruence].
  - rewrite (evaluate_invalid aes F p [] (m_dcf m) HD (TInt 128)); [reflexivity|unfold key_ok; congruence].
  - rewrite (evaluate_invalid aes F p [] (m_dcf m) HD (TInt 128)); [reflexivity|unfold key_ok; congruence].
Qed.

Section Rows.
Variables (keys : list mic_key) (points : list N).
Hypothesis HL : length points = length keys.
Hypothesis HP : Forall (fun x => x < G) points.
Hypothesis HN : N.of_nat (length keys) * N.of_nat (length ivs) * Z.to_N (mp_log mp) < 2 ^ 31.
Hypothesis HS : Forall (fun k => (length ivs <= length (mk_shares k))%nat) keys.

Lemma in_ivs : forall ji, In ji (combine (seq 0 (length ivs)) ivs) -> (fst ji < length ivs)%nat.
Proof. intros [j i] H. apply in_combine_l in H. apply in_seq in H. cbn [fst]. clear - H. lia. Qed.

Lemma mic_output_ooi : forall k x i j a b, (j < length (mk_shares k))%nat -> ok_or_invalid (mic_output G x k i j a b).
Proof.
  intros k x i j a b Hj. unfold mic_output, at_or_ub. destruct (nth_error (mk_shares k) j) eqn:E; [exact I|].
  apply nth_error_None in E. clear - E Hj. lia.
Qed.

Lemma mic_batch_rows : mic_batch_eval aes m keys points
  = (rows <- mapM (fun kx : mic_key * N => mic_row (fst kx) (snd kx)) (combine keys points) ;; Ok (concat rows)).
Proof.
  unfold mic_batch_eval, group_of. pose proof (proj1 mic_facts) as Hp. rewrite Hp. fold ivs. fold G.
  rewrite HL, Nat.eqb_refl. cbn [check bind].
  rewrite (proj2 (iterM_ok _ _ _)).
  2:{ eapply Forall_impl; [|exact HP]. intros x Hx. cbv beta in *. apply check_ok. apply N.ltb_lt. exact Hx. }
  cbn [bind].
  assert (Hlog : 1 <= Z.to_N (mp_log mp)) by (pose proof (proj1 (proj2 (proj2 mic_facts))) as H; clear - H; lia).
  replace (2147483648 <? N.of_nat (length keys) * N.of_nat (length ivs)) with false.
  2:{ symmetry. apply N.ltb_ge. change (2 ^ 31) with 2147483648 in HN. clear - HN Hlog. nia. }
  set (tasks := flat_map _ _).
  assert (HTL : length tasks = (length keys * length ivs)%nat).
  { unfold tasks. rewrite flat_map_concat_map.
    assert (HX : forall (l : list (mic_key * N)), length (concat (map (fun kx : mic_key * N => map (fun ji : nat * interval => (kx, ji)) (combine (seq 0 (length ivs)) ivs)) l)) = (length l * length ivs)%nat).
    { clear. induction l as [|a l IH]; cbn [map concat length]; auto. rewrite app_length, IH, map_length, combine_length, seq_length. lia. }
    rewrite HX, combine_length. rewrite HL, Nat.min_id. reflexivity. }
  assert (HIn : forall t, In t tasks -> (fst (snd t) < length (mk_shares (fst (fst t))))%nat).
  { intros t Ht. unfold tasks in Ht. apply in_flat_map in Ht. destruct Ht as (kx & Hkx & Ht). apply in_map_iff in Ht.
    destruct Ht as (ji & <- & Hji). cbn [fst snd]. apply in_ivs in Hji. destruct kx as [k x]. apply in_combine_l in Hkx.
    rewrite Forall_forall in HS. specialize (HS k Hkx). cbn [fst]. lia. }
  rewrite !mic_batch; rewrite ?map_length; auto.
  2-5: try (apply Forall_map, Forall_forall; intros; apply mod_G_lt); rewrite HTL; clear - HN; lia.
  rewrite !combine_map2, !mapM_map_l. cbn [fst snd].
  transitivity (mapM (fun t : (mic_key * N) * (nat * interval) => mic_task (fst (fst t)) (snd (fst t)) (snd t)) tasks).
  - unfold mic_task.
    rewrite (mapM_bind_split _ _ _
      (fun t : (mic_key * N) * (nat * interval) => dcf_evaluate aes (m_dcf m) (TInt 128) (mk_dcf (fst (fst t))) (x_p (snd (fst t)) (snd (snd t))))
      (fun t sp => sq <- dcf_evaluate aes (m_dcf m) (TInt 128) (mk_dcf (fst (fst t))) (x_q (snd (fst t)) (snd (snd t))) ;;
         mic_output G (snd (fst t)) (fst (fst t)) (snd (snd t)) (fst (snd t)) (vnum sp) (vnum sq))).
    2:{ intros t Ht. apply mic_evaluate_ooi. apply mod_G_lt. }
    2:{ intros t b Ht. apply ooi_bind; [apply mic_evaluate_ooi, mod_G_lt|]. intros v _. apply mic_output_ooi. apply HIn. exact Ht. }
    unfold x_p at 1. 
    match goal with |- bind ?a _ = bind ?b _ => change b with a; destruct a as [sp| | |] eqn:Esp end; cbn [bind]; auto.
    apply mapM_length in Esp.
    rewrite (mapM_bind_split _ _ _
      (fun ts : ((mic_key * N) * (nat * interval)) * cval => dcf_evaluate aes (m_dcf m) (TInt 128) (mk_dcf (fst (fst (fst ts)))) (x_q (snd (fst (fst ts))) (snd (snd (fst ts)))))
      (fun ts sq => mic_output G (snd (fst (fst ts))) (fst (fst (fst ts))) (snd (snd (fst ts))) (fst (snd (fst ts))) (vnum (snd ts)) (vnum sq))).
    2:{ intros t Ht. apply mic_evaluate_ooi. apply mod_G_lt. }
    2:{ intros [t sp'] b Ht. apply in_combine_l in Ht. apply mic_output_ooi. apply HIn. exact Ht. }
    rewrite (mapM_combine_fst _ _ _ (fun t : (mic_key * N) * (nat * interval) => dcf_evaluate aes (m_dcf m) (TInt 128) (mk_dcf (fst (fst t))) (x_q (snd (fst t)) (snd (snd t))))) by auto.
    match goal with |- bind ?a _ = bind ?b _ => change b with a; destruct a as [sq| | |] eqn:Esq end; cbn [bind]; auto.
    apply mapM_length in Esq. clear - Esp Esq. revert sp sq Esp Esq.
    generalize tasks. intros l. induction l as [|[[k x] [j i]] l IH]; intros [|a sp] [|b sq] H1 H2; try discriminate; auto.
    cbn [combine mapM fst snd]. rewrite IH by (cbn in *; lia). reflexivity.
  - unfold tasks. rewrite mapM_flat.
    assert (HX : forall l, mapM (fun a : mic_key * N => mapM (fun t : mic_key * N * (nat * interval) => mic_task (fst (fst t)) (snd (fst t)) (snd t))
         (map (fun ji : nat * interval => (a, ji)) (combine (seq 0 (length ivs)) ivs))) l
      = mapM (fun kx : mic_key * N => mic_row (fst kx) (snd kx)) l).
    { intros l. apply mapM_ext. intros [k x] _. rewrite mapM_map_l. reflexivity. }
    rewrite HX. reflexivity.
Qed.

End Rows.

(** ** Generated keys *)

Lemma w128_mod_G : forall x, w128 x mod G = x mod G.
Proof.
  intros x. destruct G_div as (k & HK & HG & _). unfold w128. rewrite HK.
  pose proof (N.div_mod x (k * G) ltac:(rewrite <- HK; discriminate)) as H.
  rewrite H at 2. replace (k * G * (x / (k * G)) + x mod (k * G)) with (x mod (k * G) + (k * (x / (k * G))) * G) by ring.
  rewrite N.mod_add by (clear - HG; lia). reflexivity.
Qed.
Lemma mod_G_Z : forall x, exists e, Z.of_N (x mod G) = (Z.of_N x + e * Z.of_N G)%Z.
Proof.
  intros x. destruct G_div as (k & HK & HG & _). exists (- Z.of_N (x / G))%Z.
  pose proof (N.div_mod x G ltac:(clear - HG; lia)) as H. clear - H. lia.
Qed.
Lemma mod_mul_Z : forall P k g x, P <> 0 -> P = k * g ->
  Z.of_N (x mod P) = (Z.of_N x + (- Z.of_N (x / P) * Z.of_N k) * Z.of_N g)%Z.
Proof.
  clear. intros P k g x H0 H. pose proof (N.div_mod x P H0) as HX. apply (f_equal Z.of_N) in HX.
  rewrite N2Z.inj_add, N2Z.inj_mul in HX. rewrite HX.
  apply (f_equal Z.of_N) in H. rewrite N2Z.inj_mul in H. set (y := Z.of_N (x / P)). rewrite H. ring.
Qed.
Lemma w128_G_Z : forall x, exists e, Z.of_N (w128 x) = (Z.of_N x + e * Z.of_N G)%Z.
Proof.
  intros x. destruct G_div as (k & HK & HG & _). eexists. unfold w128. apply mod_mul_Z; [discriminate|exact HK].
Qed.
Lemma cong_N : forall x y e, (Z.of_N x = Z.of_N y + e * Z.of_N G)%Z -> x mod G = y mod G.
Proof.
  intros x y e H. destruct G_div as (k & HK & HG & _). apply N2Z.inj. rewrite !N2Z.inj_mod, H.
  apply Z.mod_add. clear - HG. lia.
Qed.

Section Pair.
Variables (r_in : N) (r_out : list N) (seed0 seed1 : N) (rnd : nat -> N) (k0 k1 : mic_key).
Hypothesis HG : mic_gen aes m r_in r_out seed0 seed1 rnd = Ok (k0, k1).
Let gamma := w128 (G - 1 + r_in) mod G.
Let z_of (i : interval) (r : N) := mic_correction G r_in r i.

Lemma mic_gen_facts : length r_out = length ivs /\ r_in < G /\ Forall (fun r => r < G) r_out /\
  dcf_generate_keys_t aes (TInt 128) (m_dcf m) gamma (VNum 1) seed0 seed1 = Ok (mk_dcf k0, mk_dcf k1) /\
  k_party (mk_dcf k0) = 0%Z /\ k_party (mk_dcf k1) = 1%Z /\
  length (mk_shares k0) = length ivs /\ length (mk_shares k1) = length ivs /\
  forall j i r, nth_error ivs j = Some i -> nth_error r_out j = Some r ->
    nth_error (mk_shares k0) j = Some (u128_integer (w128 (rnd j) mod G)) /\
    nth_error (mk_shares k1) j = Some (u128_integer (w128 (z_of i r + P128 - w128 (rnd j) mod G) mod G)).
Proof.
  pose proof HG as H. unfold mic_gen, group_of in H. pose proof (proj1 mic_facts) as Hp. rewrite Hp in H.
  fold ivs G in H. fold gamma in H. bind_inv H. apply check_ok, Nat.eqb_eq in Hb. bind_inv H. apply check_ok, N.ltb_lt in Hb0.
  bind_inv H. destruct a1. rewrite iterM_ok in Hb1. bind_inv H. destruct a1 as [key0 key1]. inversion H as [[Hk0 Hk1]]. clear H.
  cbn [mk_dcf mk_shares]. split; auto. split; auto.
  split; [eapply Forall_impl; [|exact Hb1]; intros r Hr; cbv beta in Hr; apply check_ok, N.ltb_lt in Hr; exact Hr|].
  split; auto.
  assert (HPar : k_party key0 = 0%Z /\ k_party key1 = 1%Z).
  { unfold dcf_generate_keys_t, dcf_generate_keys in Hb2. bind_inv Hb2.
    pose proof (proj1 (proj2 mic_facts)) as (c0 & Hc0 & _ & Hc1).
    assert (HD : dcf_created F p [TInt 128] (dcf_register (TInt 128) (m_dcf m))).
    { exists c0. split; auto. split; [repeat constructor|]. cbn [fold_right] in *. rewrite Hc1. reflexivity. }
    pose proof (proj1 (created_wf _ _ _ _ (proj1 (dcf_created_facts _ _ _ _ HD)))) as W.
    apply (generate_keys_level _ _ W) in Hb2.
    - tauto.
    - rewrite N.shiftr_div_pow2. eapply N.le_lt_trans; [apply N.div_le_upper_bound with (q := gamma); [discriminate|]; change (2 ^ 1) with 2; clear; lia|].
      apply mod_G_lt. }
  split; [apply HPar|]. split; [apply HPar|].
  assert (HLs : length (combine (seq 0 (length ivs)) ivs) = length r_out) by (rewrite combine_length, seq_length, Nat.min_id; auto).
  split; [rewrite map_length, zip2_length; auto; rewrite combine_length, seq_length, Nat.min_id; auto|].
  split; [rewrite map_length, zip2_length; auto; rewrite combine_length, seq_length, Nat.min_id; auto|].
  intros j i r Hi Hr.
  assert (Hj : (j < length ivs)%nat) by (apply nth_error_Some; congruence).
  assert (Hc : nth_error (combine (seq 0 (length ivs)) ivs) j = Some (j, i)).
  { rewrite <- (nth_error_seq (length ivs) 0 j Hj) in Hi || idtac.
    assert (HX : forall (A B : Type) (l : list A) (l' : list B) n a b, nth_error l n = Some a -> nth_error l' n = Some b -> nth_error (combine l l') n = Some (a, b)).
    { clear. induction l as [|x l IH]; intros [|y l'] [|n] a b Ha Hb; try discriminate; cbn in *; [congruence|auto]. }
    apply HX; auto. rewrite (nth_error_seq (length ivs) 0 j Hj). reflexivity. }
  rewrite !nth_error_map, !zip2_nth_error, Hc, Hr. cbn [option_map fst snd]. split; reflexivity.
Qed.

Lemma mic_dcf_sum : forall x, x < G -> exists s0 s1,
  dcf_evaluate aes (m_dcf m) (TInt 128) (mk_dcf k0) x = Ok (VNum s0) /\
  dcf_evaluate aes (m_dcf m) (TInt 128) (mk_dcf k1) x = Ok (VNum s1) /\
  (s0 + s1) mod P128 = b2n (x <? gamma).
Proof.
  intros x Hx. destruct mic_gen_facts as (_ & _ & _ & HK & _).
  pose proof (proj1 (proj2 mic_facts)) as (c0 & Hc0 & _ & Hc1).
  set (c' := dcf_register (TInt 128) (m_dcf m)).
  assert (HD : dcf_created F p [TInt 128] c').
  { exists c0. split; auto. split; [repeat constructor|]. unfold c'. cbn [fold_right] in *. rewrite Hc1. reflexivity. }
  destruct (dcf_shares aes F p [TInt 128] c' HD mic_ld gamma (to_value (TInt 128) (VNum 1)) seed0 seed1 _ _ (mod_G_lt _) HK
              (TInt 128) mic_has eq_refl x) as (r0 & r1 & y & H0 & H1 & W0 & W1 & HS & Hlt & Hge).
  { unfold p. cbn [p_ld]. replace (N.of_nat (Z.to_nat (mp_log mp))) with (Z.to_N (mp_log mp)) by (clear; lia). exact Hx. }
  change (dcf_evaluate aes c') with (dcf_evaluate aes (m_dcf m)) in *.
  inversion HS as [w s0 s1| | |]; subst. exists s0, s1. split; auto. split; auto.
  destruct (N.ltb_spec x gamma) as [Hc|Hc]; cbn [b2n].
  - specialize (Hlt Hc). inversion Hlt as [w i v He Hv| | |]; subst.
    change P128 with (2 ^ 128). cbn in He. rewrite <- He. reflexivity.
  - specialize (Hge Hc). cbn [vzero] in Hge. inversion Hge as [Hge']. reflexivity.
Qed.

Lemma x_p_Z : forall x i, lower i < P128 -> Z.of_N (x_p x i) = ((Z.of_N x + Z.of_N G - 1 - Z.of_N (lower i)) mod Z.of_N G)%Z.
Proof.
  intros x i Hi. destruct G_div as (k & HK & HG1 & _). unfold x_p. rewrite w128_mod_G, N2Z.inj_mod.
  replace (Z.of_N (x + G - 1 + (P128 - lower i))) with (Z.of_N x + Z.of_N G - 1 - Z.of_N (lower i) + Z.of_N k * Z.of_N G)%Z.
  - apply Z.mod_add. clear - HG1. lia.
  - assert (HKZ : (Z.of_N P128 = Z.of_N k * Z.of_N G)%Z) by (rewrite HK; clear; lia). rewrite <- HKZ. clear - Hi HG1. lia.
Qed.
Lemma q_prime_Z : forall i, Z.of_N (w128 (upper i + 1) mod G) = ((Z.of_N (upper i) + 1) mod Z.of_N G)%Z.
Proof. intros i. rewrite w128_mod_G, N2Z.inj_mod. f_equal. clear. lia. Qed.
Lemma x_q_Z : forall x i, Z.of_N (x_q x i)
  = ((Z.of_N x + Z.of_N G - 1 - (Z.of_N (upper i) + 1) mod Z.of_N G) mod Z.of_N G)%Z.
Proof.
  intros x i. destruct G_div as (k & HK & HG1 & _). unfold x_q. rewrite w128_mod_G, N2Z.inj_mod.
  pose proof (mod_G_lt (w128 (upper i + 1))) as Hq. rewrite <- q_prime_Z.
  set (q' := w128 (upper i + 1) mod G) in *. clearbody q'.
  replace (Z.of_N (x + G - 1 + (P128 - q'))) with (Z.of_N x + Z.of_N G - 1 - Z.of_N q' + Z.of_N k * Z.of_N G)%Z.
  - apply Z.mod_add. clear - HG1. lia.
  - assert (HKZ : (Z.of_N P128 = Z.of_N k * Z.of_N G)%Z) by (rewrite HK; clear; lia). rewrite <- HKZ. clear - Hq HG1. lia.
Qed.

Lemma u128_field_integer : forall x, x < P128 -> u128_field (u128_integer x) = x.
Proof. intros x Hx. unfold u128_field, u128_integer, mk128, hi64, lo64. clear - Hx. lia. Qed.

Lemma sum_mod_Z : forall s0 s1 b, (s0 + s1) mod P128 = b -> exists e, (Z.of_N (s0 mod G) + Z.of_N (s1 mod G) = Z.of_N b + e * Z.of_N G)%Z.
Proof.
  intros s0 s1 b H. destruct (mod_G_Z s0) as (e0 & H0). destruct (mod_G_Z s1) as (e1 & H1).
  destruct (w128_G_Z (s0 + s1)) as (e2 & H2). unfold w128 in H2. rewrite H in H2.
  exists (e0 + e1 - e2)%Z. rewrite H0, H1, H2. clear. rewrite N2Z.inj_add. ring.
Qed.
Lemma b2n_Z : forall b, Z.of_N (b2n b) = zb b.
Proof. intros []; reflexivity. Qed.
Lemma neg_Z : forall b, exists e, Z.of_N (if b : bool then P128 - 1 else 0) = (- zb b + e * Z.of_N G)%Z.
Proof.
  destruct G_div as (k & HK & HG1 & _). intros [].
  - exists (Z.of_N k). replace (P128 - 1) with (k * G - 1) by (rewrite <- HK; reflexivity). cbn [zb].
    assert (1 <= k * G) by (rewrite <- HK; discriminate). clear - H. lia.
  - exists 0%Z. reflexivity.
Qed.
Lemma ltb_Z : forall a b, (a <? b) = (Z.of_N a <? Z.of_N b)%Z.
Proof. intros a b. destruct (N.ltb_spec a b), (Z.ltb_spec (Z.of_N a) (Z.of_N b)); lia. Qed.
Lemma eqb_Z : forall a b, (a =? b) = (Z.of_N a =? Z.of_N b)%Z.
Proof. intros a b. destruct (N.eqb_spec a b), (Z.eqb_spec (Z.of_N a) (Z.of_N b)); lia. Qed.

(** The correction term. *)
Lemma correction_Z : forall i r, lower i <= upper i -> upper i < G -> exists e,
  let N := Z.of_N G in let P := Z.of_N (lower i) in let Q := Z.of_N (upper i) in let R := Z.of_N r_in in
  (Z.of_N (z_of i r) = Z.of_N r
     + zb ((Q + R) mod N <? (P + R) mod N) - zb (P <? (P + R) mod N)
     + zb ((Q + 1) mod N <? (Q + 1 + R) mod N) + zb ((Q + R) mod N =? N - 1) + e * N)%Z.
Proof.
  intros i r H1 H2. destruct G_div as (k & HK & HG1 & HG2). cbv zeta. unfold z_of, mic_correction. rewrite !w128_mod_G.
  set (t := (if lower i <? (lower i + r_in) mod G then P128 - 1 else 0)).
  match goal with |- context [Z.of_N (?a mod G)] => destruct (mod_G_Z a) as (e & ->) end.
  rewrite !N2Z.inj_add, !b2n_Z. unfold t. clear t.
  destruct (neg_Z (lower i <? (lower i + r_in) mod G)) as (e' & ->).
  exists (e + e')%Z. rewrite !ltb_Z, eqb_Z, !N2Z.inj_mod, !N2Z.inj_add.
  replace (Z.of_N (G - 1)) with (Z.of_N G - 1)%Z by (clear - HG1; lia). change (Z.of_N 1) with 1%Z. ring.
Qed.

(** One output: the two parties' values add up to the mask plus the indicator. *)
Lemma mic_task_sum : forall x j i r, x < G -> nth_error ivs j = Some i -> nth_error r_out j = Some r ->
  let xm := (x + r_in) mod G in
  exists a b, mic_task k0 xm (j, i) = Ok a /\ mic_task k1 xm (j, i) = Ok b /\
    (a + b) mod G = (r + (if (lower i <=? x) && (x <=? upper i) then 1 else 0)) mod G.
Proof.
  intros x j i r Hx Hi Hr xm.
  destruct mic_gen_facts as (_ & Hrin & _ & _ & Hp0 & Hp1 & _ & _ & HSh). specialize (HSh j i r Hi Hr). destruct HSh as [Hs0 Hs1].
  pose proof (proj2 (proj2 (proj2 mic_facts))) as HF. rewrite Forall_forall in HF.
  destruct (HF i (nth_error_In _ _ Hi)) as (_ & Hlu & HuG). clear HF.
  destruct G_div as (k & HK & HG1 & HG2).
  assert (HmG : forall y, y mod G < G) by (intros y; apply N.mod_lt; clear - HG1; lia).
  assert (HGP : G < P128) by (eapply N.le_lt_trans; [exact HG2|reflexivity]).
  unfold mic_task. cbn [fst snd].
  destruct (mic_dcf_sum (x_p xm i)) as (p0 & p1 & Hp0' & Hp1' & Hps); [apply HmG|].
  destruct (mic_dcf_sum (x_q xm i)) as (q0 & q1 & Hq0' & Hq1' & Hqs); [apply HmG|].
  rewrite Hp0', Hp1', Hq0', Hq1'. cbn [bind vnum]. unfold mic_output, at_or_ub. rewrite Hs0, Hs1, Hp0, Hp1. cbn [bind].
  eexists _, _. split; [reflexivity|]. split; [reflexivity|].
  change (negb (0 =? 0)%Z) with false. change (negb (1 =? 0)%Z) with true. cbv iota.
  set (first := w128 (b2n _ + _)).
  rewrite !u128_field_integer by apply mod_G_lt. rewrite !(w128_mod_G (rnd j)).
  set (ma := rnd j mod G). assert (Hma : ma < G) by apply HmG.
  rewrite !(w128_mod_G (_ + P128 - ma)). rewrite !(w128_mod_G (_ + _)).
  rewrite <- N.add_mod by (clear - HG1; lia).
  destruct (correction_Z i r Hlu HuG) as (ez & Hz). cbv zeta in Hz.
  set (z := z_of i r) in *.
  destruct (mod_G_Z (z + P128 - ma)) as (e1 & He1).
  assert (Hz1 : (Z.of_N (z + P128 - ma) = Z.of_N z + Z.of_N k * Z.of_N G - Z.of_N ma)%Z).
  { assert (HKZ : (Z.of_N P128 = Z.of_N k * Z.of_N G)%Z) by (rewrite HK; clear; lia). rewrite <- HKZ. clear - Hma HGP. lia. }
  destruct (sum_mod_Z _ _ _ Hps) as (ep & Hep). destruct (sum_mod_Z _ _ _ Hqs) as (eq & Heq).
  pose proof (mic_identity (Z.of_N G) (Z.of_N (lower i)) (Z.of_N (upper i)) (Z.of_N r_in) (Z.of_N x)) as HI.
  cbv zeta in HI. specialize (HI ltac:(clear - HG1; lia) ltac:(clear; lia) ltac:(clear - Hlu; lia) ltac:(clear - HuG; lia) ltac:(clear - Hrin; lia) ltac:(clear - Hx; lia)).
  assert (Hf : exists ef, (Z.of_N first = zb (Z.of_N (lower i) <? Z.of_N xm) - zb ((Z.of_N (upper i) + 1) mod Z.of_N G <? Z.of_N xm) + ef * Z.of_N G)%Z).
  { unfold first. match goal with |- context [w128 ?a] => destruct (w128_G_Z a) as (e & ->) end.
    rewrite N2Z.inj_add, b2n_Z. destruct (neg_Z (w128 (upper i + 1) mod G <? xm)) as (e' & ->). exists (e + e')%Z.
    rewrite !ltb_Z, q_prime_Z. ring. }
  destruct Hf as (ef & Hf).
  rewrite b2n_Z in Hep, Heq. rewrite ltb_Z in Hep, Heq.
  rewrite x_p_Z in Hep by (clear - Hlu HuG HGP; lia). rewrite x_q_Z in Heq.
  assert (Hgam : Z.of_N gamma = ((Z.of_N G - 1 + Z.of_N r_in) mod Z.of_N G)%Z).
  { unfold gamma. rewrite w128_mod_G, N2Z.inj_mod. f_equal. clear - HG1. lia. }
  assert (Hxm : Z.of_N xm = ((Z.of_N x + Z.of_N r_in) mod Z.of_N G)%Z).
  { unfold xm. rewrite N2Z.inj_mod. f_equal. clear. lia. }
  rewrite Hgam, Hxm in Hep, Heq. rewrite Hxm in Hf.
  assert (Hind : Z.of_N (if (lower i <=? x) && (x <=? upper i) then 1 else 0)
               = zb ((Z.of_N (lower i) <=? Z.of_N x) && (Z.of_N x <=? Z.of_N (upper i)))%Z).
  { clear. destruct (N.leb_spec (lower i) x), (N.leb_spec x (upper i)), (Z.leb_spec (Z.of_N (lower i)) (Z.of_N x)), (Z.leb_spec (Z.of_N x) (Z.of_N (upper i))); try lia; reflexivity. }
  assert (Hsub : forall s, s < G -> Z.of_N (P128 - s) = (Z.of_N k * Z.of_N G - Z.of_N s)%Z).
  { assert (HKZ : (Z.of_N P128 = Z.of_N k * Z.of_N G)%Z) by (rewrite HK; clear; lia). rewrite <- HKZ. intros s Hs. clear - Hs HGP. lia. }
  apply cong_N with (e := (2 * Z.of_N k + e1 + Z.of_N k + ez + ef + eq - ep)%Z).
  rewrite !N2Z.inj_add, (Hsub (p0 mod G)), (Hsub (p1 mod G)), He1, Hz1, Hz, Hf, Hind, <- HI by apply HmG.
  rewrite N2Z.inj_0. clear - Hep Heq. 
  match type of Hep with (_ = zb ?b + _)%Z => set (bp := zb b) in * end.
  match type of Heq with (_ = zb ?b + _)%Z => set (bq := zb b) in * end.
  apply Z.add_move_r in Hep, Heq. rewrite Hep, Heq. ring.
Qed.

End Pair.
End Mic.
