(** Properties of many keys and of several objects (C66, C67). *)
From Coq Require Import List NArith ZArith QArith Lia Bool ZifyBool ZifyNat ZifyN.
From Verif Require Import Base ListUtil ValueTypesModel ValueTypesSpec ValueTypesProofs ConvProofs TypeProofs
  DpfModel DpfWf DpfGen DpfEval DpfPoint DpfSpec DpfHist DpfCreate DpfFacts DpfExamples.
Import ListNotations.
Open Scope N_scope.

(** ** C66: aggregation *)

(** The sum of a list of values in the group of [T]. *)
Inductive gtotal (T : cty) : list cval -> cval -> Prop :=
| gtotal_nil : gtotal T [] (vzero T)
| gtotal_cons : forall x l s s', gtotal T l s -> gsum T x s s' -> gtotal T (x :: l) s'.

(** What a server computes: the sum of the outputs of all keys for the [i]-th element. *)
Definition column (T : cty) (i : nat) (rows : list (list cval)) : cval :=
  fold_left (fun s row => vadd T s (nth i row (vzero T))) rows (vzero T).

Section Pairs.
Variables (aes : N -> N -> N) (F : fops) (ps : list param) (types : list cty) (d : dpf).
Hypothesis HC : created F ps types d.
Variables (h : nat) (T : cty).
Hypothesis HT : level_has ps h T.
Let W : wf d := proj1 (created_wf _ _ _ _ HC).
Let Hok : cty_ok T = true := proj1 HT.

Lemma pair_shares : forall g points, generated aes d g -> Forall (fun x => x < 2 ^ level_ld ps h) points ->
  exists b v r0 r1, nth_error (gp_beta g) h = Some b /\ repr T b v /\ wt T v = true /\
    evaluate_at aes d T (gp_key0 g) (Z.of_nat h) points = Ok r0 /\
    evaluate_at aes d T (gp_key1 g) (Z.of_nat h) points = Ok r1 /\
    length r0 = length points /\ length r1 = length points /\
    forall i x, nth_error points i = Some x ->
      wt T (nth i r0 (vzero T)) = true /\ wt T (nth i r1 (vzero T)) = true /\
      vadd T (nth i r0 (vzero T)) (nth i r1 (vzero T)) = point_function T (alpha_prefix ps (gp_alpha g) h) v x.
Proof using HC HT W Hok.
  intros g points (Ha & seed0 & seed1 & HG) HP.
  pose proof (level_has_lt _ _ _ HT) as Hh. pose proof (created_len _ _ _ _ HC) as HL.
  pose proof (level_has_type _ _ _ _ _ _ HC HT) as HT'.
  pose proof (gen_enough aes F ps types d HC _ _ _ _ _ _ Ha HG h T HT) as HE.
  destruct (gen_keys_ok aes d W _ _ _ _ _ _ Ha HG) as [K0 K1].
  destruct (share_sum aes d W _ _ _ _ _ _ Ha HG h T HT') as (b & v & corrs & Hb & Hr & Hwv & _ & H0 & H1 & HS).
  assert (HP' : Forall (fun x => x < 2 ^ N.of_nat (ld d h)) points).
  { rewrite (created_ld _ _ _ _ _ HC) in HP by auto. auto. }
  assert (Hh' : (h < nlevels d)%nat) by lia.
  exists b, v, (map (share aes d T (gp_key0 g) h corrs) points), (map (share aes d T (gp_key1 g) h corrs) points).
  split; [auto|]. split; [auto|]. split; [auto|].
  assert (HEv : forall key, key_ok d key -> values_to_array T (key_values d key h) = Ok corrs ->
     evaluate_at aes d T key (Z.of_nat h) points = Ok (map (share aes d T key h corrs) points)).
  { intros key Hk Hc. destruct points as [|x0 pts].
    - unfold evaluate_at. rewrite !(evaluate_at_checks_ok d W h Hh') by auto. reflexivity.
    - rewrite (evaluate_at_eq aes d W h T Hh' HT' HE) by (auto; discriminate). rewrite Hc. reflexivity. }
  split; [apply HEv; auto|]. split; [apply HEv; auto|]. rewrite !map_length. split; [auto|]. split; [auto|].
  intros i x Hx.
  assert (En : forall key, nth i (map (share aes d T key h corrs) points) (vzero T) = share aes d T key h corrs x).
  { intros key. apply nth_error_nth. rewrite nth_error_map, Hx. reflexivity. }
  rewrite !En. rewrite Forall_forall in HP'. destruct (HS x (HP' x (nth_error_In _ _ Hx))) as (W0 & W1 & E).
  split; [auto|]. split; [auto|]. rewrite E. unfold point_function. rewrite (alpha_prefix_shiftr _ _ _ _ _ _ HC) by auto. reflexivity.
Qed.

(** [fold_left] of the group operation. *)
Definition total (l : list cval) (s : cval) : cval := fold_left (vadd T) l s.
Lemma total_wt : forall l s, Forall (fun x => wt T x = true) l -> wt T s = true -> wt T (total l s) = true.
Proof using HT Hok.
  induction l as [|x l IH]; intros s Hl Hs; [exact Hs|]. inversion Hl; subst. apply IH; auto. apply vadd_wt; auto.
Qed.
Lemma total_start : forall l s, Forall (fun x => wt T x = true) l -> wt T s = true ->
  total l s = vadd T s (total l (vzero T)).
Proof using HT Hok.
  induction l as [|x l IH]; intros s Hl Hs; cbn [total fold_left].
  - rewrite vadd_0_r; auto.
  - inversion Hl; subst. fold (total l (vadd T s x)). fold (total l (vadd T (vzero T) x)).
    pose proof (vzero_wt T Hok) as HZ.
    rewrite (IH (vadd T s x)), (IH (vadd T (vzero T) x)) by auto using vadd_wt.
    rewrite (vadd_comm T (vzero T) x), vadd_0_r by auto.
    symmetry. apply vadd_assoc; auto using total_wt.
Qed.
Lemma total_gtotal : forall l, Forall (fun x => wt T x = true) l -> gtotal T l (total l (vzero T)).
Proof using HT Hok.
  induction 1 as [|x l Hx Hl IH]; cbn [total fold_left]; [constructor|].
  pose proof (vzero_wt T Hok) as HZ. fold (total l (vadd T (vzero T) x)).
  rewrite total_start by auto using vadd_wt. rewrite (vadd_comm T (vzero T) x), vadd_0_r by auto.
  econstructor; [exact IH|]. apply vadd_gsum; auto using total_wt.
Qed.
Lemma vadd_swap : forall a b c e, wt T a = true -> wt T b = true -> wt T c = true -> wt T e = true ->
  vadd T (vadd T a b) (vadd T c e) = vadd T (vadd T a c) (vadd T b e).
Proof using HT Hok.
  intros a b c e Ha Hb Hc He.
  rewrite <- (vadd_assoc T a b (vadd T c e)), <- (vadd_assoc T a c (vadd T b e)) by auto using vadd_wt.
  f_equal. rewrite (vadd_assoc T b c e), (vadd_assoc T c b e), (vadd_comm T b c) by auto. reflexivity.
Qed.
Lemma column_total : forall i rows s,
  fold_left (fun s row => vadd T s (nth i row (vzero T))) rows s = total (map (fun row => nth i row (vzero T)) rows) s.
Proof using. clear. induction rows as [|r rows IH]; intros s; cbn [map total fold_left]; auto. Qed.

Lemma aggregate : forall gs points, Forall (generated aes d) gs -> Forall (fun x => x < 2 ^ level_ld ps h) points ->
  exists m0 m1 vs,
    mapM (fun g => evaluate_at aes d T (gp_key0 g) (Z.of_nat h) points) gs = Ok m0 /\
    mapM (fun g => evaluate_at aes d T (gp_key1 g) (Z.of_nat h) points) gs = Ok m1 /\
    Forall2 (fun g v => exists b, nth_error (gp_beta g) h = Some b /\ repr T b v) gs vs /\
    Forall (fun v => wt T v = true) vs /\
    forall i x, nth_error points i = Some x ->
      Forall (fun row => wt T (nth i row (vzero T)) = true) m0 /\
      Forall (fun row => wt T (nth i row (vzero T)) = true) m1 /\
      vadd T (column T i m0) (column T i m1)
      = total (map snd (filter (fun gv => x =? alpha_prefix ps (gp_alpha (fst gv)) h) (combine gs vs))) (vzero T).
Proof using HC HT W Hok.
  intros gs points HG HP. pose proof (vzero_wt T Hok) as HZ.
  induction HG as [|g gs Hg HG IH].
  - exists [], [], []. split; [reflexivity|]. split; [reflexivity|]. split; [constructor|]. split; [constructor|].
    intros i x Hx. split; [constructor|]. split; [constructor|]. cbn. apply vadd_0_r; auto.
  - destruct IH as (m0 & m1 & vs & E0 & E1 & HV & HW & HX).
    destruct (pair_shares g points Hg HP) as (b & v & r0 & r1 & Hb & Hr & Hwv & R0 & R1 & _ & _ & HS).
    exists (r0 :: m0), (r1 :: m1), (v :: vs). cbn [mapM]. rewrite R0, R1, E0, E1. cbn [bind].
    split; [reflexivity|]. split; [reflexivity|]. split; [constructor; [eauto|auto]|]. split; [constructor; auto|].
    intros i x Hx. destruct (HX i x Hx) as (W0 & W1 & E). destruct (HS i x Hx) as (S0 & S1 & ES).
    split; [constructor; auto|]. split; [constructor; auto|].
    assert (HF : forall m, Forall (fun row => wt T (nth i row (vzero T)) = true) m ->
       Forall (fun y => wt T y = true) (map (fun row : list cval => nth i row (vzero T)) m)).
    { intros m Hm. apply Forall_map. exact Hm. }
    assert (HCol : forall r m, Forall (fun row => wt T (nth i row (vzero T)) = true) m -> wt T (nth i r (vzero T)) = true ->
       column T i (r :: m) = vadd T (nth i r (vzero T)) (column T i m)).
    { intros r m Hm Hw. unfold column. cbn [fold_left]. rewrite !column_total. rewrite total_start by auto using vadd_wt.
      f_equal. rewrite vadd_comm, vadd_0_r; auto. }
    rewrite !HCol by auto.
    assert (HCW : forall m, Forall (fun row => wt T (nth i row (vzero T)) = true) m -> wt T (column T i m) = true).
    { intros m Hm. unfold column. rewrite column_total. apply total_wt; auto. }
    rewrite vadd_swap by auto. rewrite ES, E. cbn [combine filter fst]. unfold point_function.
    assert (HFl : Forall (fun y => wt T y = true)
       (map snd (filter (fun gv : gen_pair * cval => x =? alpha_prefix ps (gp_alpha (fst gv)) h) (combine gs vs)))).
    { apply Forall_forall. intros y Hy. apply in_map_iff in Hy. destruct Hy as ((g' & y') & <- & Hy).
      apply filter_In in Hy. destruct Hy as [Hy _]. apply in_combine_r in Hy. rewrite Forall_forall in HW. exact (HW _ Hy). }
    destruct (x =? alpha_prefix ps (gp_alpha g) h).
    + cbn [map snd]. unfold total at 2. cbn [fold_left]. fold (total (map snd (filter
        (fun gv : gen_pair * cval => x =? alpha_prefix ps (gp_alpha (fst gv)) h) (combine gs vs))) (vadd T (vzero T) v)).
      rewrite (total_start _ (vadd T (vzero T) v)) by auto using vadd_wt. f_equal. rewrite vadd_comm, vadd_0_r; auto.
    + rewrite vadd_comm, vadd_0_r by (auto; apply total_wt; auto). reflexivity.
Qed.
End Pairs.

(** Two servers that each hold one key of every client and add up their evaluations at the
    same elements get shares of the sum of the betas of the clients whose alphas have that
    prefix: the aggregation for which incremental DPFs are made. *)
Theorem C66_aggregation : forall aes F ps types d h T clients points,
  created F ps types d -> level_has ps h T -> Forall (generated aes d) clients ->
  Forall (fun x => x < 2 ^ level_ld ps h) points ->
  exists rows0 rows1 vs,
    mapM (fun g => evaluate_at aes d T (gp_key0 g) (Z.of_nat h) points) clients = Ok rows0 /\
    mapM (fun g => evaluate_at aes d T (gp_key1 g) (Z.of_nat h) points) clients = Ok rows1 /\
    Forall2 (fun g v => exists b, nth_error (gp_beta g) h = Some b /\ repr T b v) clients vs /\
    forall i x, nth_error points i = Some x ->
      exists s, gtotal T (map snd (filter (fun gv => x =? alpha_prefix ps (gp_alpha (fst gv)) h)
                                          (combine clients vs))) s /\
                gsum T (column T i rows0) (column T i rows1) s.
Proof.
  intros aes F ps types d h T clients points HC HT HG HP.
  destruct (aggregate aes F ps types d HC h T HT clients points HG HP) as (m0 & m1 & vs & E0 & E1 & HV & HW & HX).
  exists m0, m1, vs. split; [auto|]. split; [auto|]. split; [auto|]. intros i x Hx.
  destruct (HX i x Hx) as (W0 & W1 & E). eexists. split.
  - apply (total_gtotal ps h T HT). apply Forall_forall. intros y Hy. apply in_map_iff in Hy. destruct Hy as ((g' & y') & <- & Hy).
    apply filter_In in Hy. destruct Hy as [Hy _]. apply in_combine_r in Hy. rewrite Forall_forall in HW. exact (HW _ Hy).
  - rewrite <- E. pose proof (proj1 HT) as Hok. pose proof (vzero_wt T Hok).
    apply vadd_gsum; auto; unfold column; rewrite column_total; apply (total_wt ps h T HT); auto; apply Forall_map; auto.
Qed.
Print Assumptions C66_aggregation.
(** The outputs are values of the type: in range. *)
Theorem C01_outputs_in_range : forall aes F ps types d h T g points,
  created F ps types d -> level_has ps h T -> generated aes d g ->
  Forall (fun x => x < 2 ^ level_ld ps h) points ->
  exists r0 r1, evaluate_at aes d T (gp_key0 g) (Z.of_nat h) points = Ok r0 /\
    evaluate_at aes d T (gp_key1 g) (Z.of_nat h) points = Ok r1 /\
    length r0 = length points /\ length r1 = length points /\
    Forall (fun v => wt T v = true) (r0 ++ r1).
Proof.
  intros aes F ps types d h T g points HC HT HG HP.
  destruct (pair_shares aes F ps types d HC h T HT g points HG HP) as (b & v & r0 & r1 & _ & _ & _ & E0 & E1 & N0 & N1 & HS).
  exists r0, r1. repeat (split; [auto|]).
  assert (HX : forall r, length r = length points ->
     (forall i x, nth_error points i = Some x -> wt T (nth i r (vzero T)) = true) -> Forall (fun v => wt T v = true) r).
  { intros r Hr H. apply Forall_forall. intros y Hy. apply In_nth with (d := vzero T) in Hy. destruct Hy as (i & Hi & <-).
    destruct (nth_error points i) as [x|] eqn:E; [eauto|]. apply nth_error_None in E. lia. }
  apply Forall_app. split; apply HX; auto; intros i x Hx; destruct (HS i x Hx) as (S0 & S1 & _); auto.
Qed.
Print Assumptions C01_outputs_in_range.
Definition xg_client (alpha x : N) (seed : N) : gen_pair :=
  let beta := [to_value (TInt 8) (VNum 3); to_value ex_tuple (VTup [VNum x; VNum (2 * x)]); to_value (TInt 64) (VNum 5)] in
  match generate_keys ex_aes ex_d alpha beta seed (seed + 1) with
  | Ok (k0, k1) => {| gp_alpha := alpha; gp_beta := beta; gp_key0 := k0; gp_key1 := k1 |}
  | _ => {| gp_alpha := alpha; gp_beta := beta; gp_key0 := ex_k0; gp_key1 := ex_k1 |}
  end.
(** Three clients, two of them with the same prefix. *)
Definition xg_clients : list gen_pair := [xg_client (37 * 8 + 1) 10 11; xg_client (12 * 8) 20 21; xg_client (37 * 8 + 3) 30 31].
Example C66_nonvacuous :
  Forall (generated ex_aes ex_d) xg_clients /\
  map (fun g => alpha_prefix ex_ps (gp_alpha g) 1) xg_clients = [37; 12; 37] /\
  match mapM (fun g => evaluate_at ex_aes ex_d ex_tuple (gp_key0 g) 1 [12; 13; 37]) xg_clients,
        mapM (fun g => evaluate_at ex_aes ex_d ex_tuple (gp_key1 g) 1 [12; 13; 37]) xg_clients return Prop with
  | Ok m0, Ok m1 =>
      map (fun i => vadd ex_tuple (column ex_tuple i m0) (column ex_tuple i m1)) [0; 1; 2]%nat
      = [VTup [VNum 20; VNum 40]; VTup [VNum 0; VNum 0]; VTup [VNum 40; VNum 80]]
  | _, _ => False
  end.
Proof.
  split; [|split].
  - unfold xg_clients. repeat apply Forall_cons; try apply Forall_nil.
    all: split; [vm_compute; reflexivity|].
    + exists 11, 12. vm_compute. reflexivity.
    + exists 21, 22. vm_compute. reflexivity.
    + exists 31, 32. vm_compute. reflexivity.
  - vm_compute. reflexivity.
  - vm_compute. reflexivity.
Qed.

(** ** C67: objects with the same parameters are interchangeable *)

Lemma register_fields : forall types d, let d' := fold_right register_value_type d types in
  d_params d' = d_params d /\ d_levels d' = d_levels d /\ d_h2t d' = d_h2t d /\ d_blocks d' = d_blocks d /\
  d_types d' = types ++ d_types d.
Proof.
  induction types as [|T types IH]; intros d; cbn [fold_right]; cbn zeta; [auto|].
  destruct (IH d) as (H1 & H2 & H3 & H4 & H5). cbn [register_value_type d_params d_levels d_h2t d_blocks d_types].
  rewrite H5. auto.
Qed.
Lemma same_objects : forall F ps types types' d d', created F ps types d -> created F ps types' d' ->
  exists ts ts', d = {| d_params := d_params d; d_levels := d_levels d; d_h2t := d_h2t d; d_blocks := d_blocks d; d_types := ts |} /\
    d' = {| d_params := d_params d; d_levels := d_levels d; d_h2t := d_h2t d; d_blocks := d_blocks d; d_types := ts' |} /\
    Forall (fun T => cty_ok T = true) ts /\ Forall (fun T => cty_ok T = true) ts'.
Proof.
  intros F ps types types' d d' (d0 & H0 & HF & ->) (d0' & H0' & HF' & ->). rewrite H0 in H0'. inv H0'. rename d0' into d0.
  destruct (register_fields types d0) as (A1 & A2 & A3 & A4 & A5). destruct (register_fields types' d0) as (B1 & B2 & B3 & B4 & B5).
  cbn zeta in *.
  assert (HD : Forall (fun T => cty_ok T = true) (d_types d0)).
  { unfold create_incremental in H0. bind_inv H0. destruct a as [[ps0 needed] h2t]. bind_inv H0. inv H0. cbn [d_types].
    repeat constructor. }
  exists (types ++ d_types d0), (types' ++ d_types d0).
  split; [destruct (fold_right register_value_type d0 types); cbn in *; congruence|].
  split; [destruct (fold_right register_value_type d0 types'); cbn in *; congruence|].
  split; apply Forall_app; auto.
Qed.

Section Two.
Variable aes : N -> N -> N.
Variables (ps : list param) (lv : nat) (m : list nat) (bl : list nat) (ts ts' : list cty).
Let d := {| d_params := ps; d_levels := lv; d_h2t := m; d_blocks := bl; d_types := ts |}.
Let d' := {| d_params := ps; d_levels := lv; d_h2t := m; d_blocks := bl; d_types := ts' |}.
Hypothesis Hts : Forall (fun T => cty_ok T = true) ts.
Hypothesis Hts' : Forall (fun T => cty_ok T = true) ts'.

Lemma same_type : forall vt T T', get_value_correction_function d vt = Ok T -> get_value_correction_function d' vt = Ok T' -> T = T'.
Proof using Hts Hts'.
  intros vt T T' H H'. unfold get_value_correction_function in *. cbn [d_types d d'] in *.
  destruct (find _ ts) as [U|] eqn:E; [|discriminate]. destruct (find _ ts') as [U'|] eqn:E'; [|discriminate]. inv H. inv H'.
  apply find_some in E, E'. destruct E as [I E], E' as [I' E']. apply ptype_eqb_eq in E, E'.
  rewrite Forall_forall in Hts, Hts'. eapply denotes_fun.
  - apply to_value_type_denotes. exact (Hts _ I).
  - rewrite E, <- E'. apply to_value_type_denotes. exact (Hts' _ I').
Qed.
Lemma same_correction : forall h sa sb a b inv r r',
  compute_value_correction aes d h sa sb a b inv = Ok r -> compute_value_correction aes d' h sa sb a b inv = Ok r' -> r = r'.
Proof using Hts Hts'.
  intros h sa sb a b inv r r' H H'. unfold compute_value_correction in H, H'.
  bind_inv H. bind_inv H. bind_inv H'. bind_inv H'. cbn [d_params d d'] in *. rewrite Hb in Hb1. inv Hb1.
  rewrite (same_type _ _ _ Hb0 Hb2) in H.
  assert (Ok r = Ok r') by (rewrite <- H, <- H'; reflexivity). congruence.
Qed.
Lemma same_next : forall i a b g r r',
  generate_next aes d i a b g = Ok r -> generate_next aes d' i a b g = Ok r' -> r = r'.
Proof using Hts Hts'.
  intros i a b g r r' H H'. unfold generate_next in H, H'. bind_inv H. bind_inv H'.
  assert (a0 = a1).
  { change (tree_to_hierarchy d' (i - 1)) with (tree_to_hierarchy d (i - 1)) in Hb0.
    destruct (tree_to_hierarchy d (i - 1)) as [h|]; [|congruence].
    bind_inv Hb. bind_inv Hb0. rewrite Hb1 in Hb2. inv Hb2. eapply same_correction; eauto. }
  subst a1. assert (E : Ok r = Ok r') by exact (eq_trans (eq_sym H) H'). congruence.
Qed.
Lemma same_loop : forall n i a b g r r',
  generate_loop aes d n i a b g = Ok r -> generate_loop aes d' n i a b g = Ok r' -> r = r'.
Proof using Hts Hts'.
  induction n as [|n IH]; intros i a b g r r' H H'; cbn [generate_loop] in H, H'; [congruence|].
  bind_inv H. bind_inv H'. rewrite (same_next _ _ _ _ _ _ Hb Hb0) in H. destruct a1 as [g1 cw].
  bind_inv H. bind_inv H'. rewrite (IH _ _ _ _ _ _ Hb1 Hb2) in H. congruence.
Qed.
Lemma same_keys : forall alpha beta s0 s1 ks ks',
  generate_keys aes d alpha beta s0 s1 = Ok ks -> generate_keys aes d' alpha beta s0 s1 = Ok ks' -> ks = ks'.
Proof using Hts Hts'.
  intros alpha beta s0 s1 ks ks' H H'. unfold generate_keys in H, H'. 
  do 3 (bind_inv H; bind_inv H').
  bind_inv H. bind_inv H'. change (d_levels d') with (d_levels d) in *. rewrite (same_loop _ _ _ _ _ _ _ Hb5 Hb6) in H. destruct a6 as [g cws].
  bind_inv H. bind_inv H'. bind_inv H. bind_inv H'.
  change (nlevels d') with (nlevels d) in *. rewrite Hb7 in Hb8. inv Hb8.
  rewrite (same_correction _ _ _ _ _ _ _ _ Hb9 Hb10) in H. congruence.
Qed.
End Two.

(** Which value types have been registered, and in which order, does not matter: two objects
    created from the same parameters generate the same keys from the same random bytes, if
    both have registered the types that they need, and return the same results for all evaluation
    calls. *)
Theorem C67_interchangeable : forall aes F ps types types' d d',
  created F ps types d -> created F ps types' d' ->
  (forall alpha beta seed0 seed1 ks ks', generate_keys aes d alpha beta seed0 seed1 = Ok ks ->
     generate_keys aes d' alpha beta seed0 seed1 = Ok ks' -> ks = ks') /\
  (forall key, create_evaluation_context d key = create_evaluation_context d' key) /\
  (forall T key h points, evaluate_at aes d T key h points = evaluate_at aes d' T key h points) /\
  (forall T h points c, evaluate_at_ctx aes d T h points c = evaluate_at_ctx aes d' T h points c) /\
  (forall T h prefixes c, evaluate_until aes d T h prefixes c = evaluate_until aes d' T h prefixes c) /\
  (forall T prefixes c, evaluate_next aes d T prefixes c = evaluate_next aes d' T prefixes c) /\
  (forall S T keys points (op : S -> list cval -> S * bool) rs s,
     evaluate_and_apply aes d T keys points op rs s = evaluate_and_apply aes d' T keys points op rs s).
Proof.
  intros aes F ps types types' d d' HC HC'.
  destruct (same_objects _ _ _ _ _ _ HC HC') as (ts & ts' & E & E' & H1 & H2).
  revert E E'. generalize (d_params d) (d_levels d) (d_h2t d) (d_blocks d). intros p l m b -> ->. clear HC HC'.
  split; [|repeat split; intros; reflexivity].
  intros alpha beta seed0 seed1 ks ks' H H'. exact (same_keys aes p l m b ts ts' H1 H2 _ _ _ _ _ _ H H').
Qed.
Print Assumptions C67_interchangeable.

(** In particular one party may generate the keys, and the other two may evaluate them with
    their own objects, in which no value type need be registered. *)
Theorem C67_other_objects : forall aes F ps types d types0 d0 types1 d1 alpha beta seed0 seed1 k0 k1,
  created F ps types d -> created F ps types0 d0 -> created F ps types1 d1 -> alpha < 2 ^ 128 ->
  generate_keys aes d alpha beta seed0 seed1 = Ok (k0, k1) ->
  forall h T, level_has ps h T ->
  exists b v, nth_error beta h = Some b /\ repr T b v /\
    forall points, Forall (fun x => x < 2 ^ level_ld ps h) points ->
      exists r0 r1, evaluate_at aes d0 T k0 (Z.of_nat h) points = Ok r0 /\
        evaluate_at aes d1 T k1 (Z.of_nat h) points = Ok r1 /\
        reconstruct T (alpha_prefix ps alpha h) v points r0 r1.
Proof.
  intros aes F ps types d types0 d0 types1 d1 alpha beta seed0 seed1 k0 k1 HC HC0 HC1 Ha HG h T HT.
  destruct (point_shares aes F ps types d HC alpha beta seed0 seed1 k0 k1 Ha HG h T HT) as (b & v & Hb & Hr & H).
  exists b, v. split; [exact Hb|]. split; [exact Hr|]. intros points HP.
  destruct (H points HP) as (r0 & r1 & E0 & E1 & R). exists r0, r1.
  destruct (C67_interchangeable aes F ps types0 types d0 d HC0 HC) as (_ & _ & X0 & _).
  destruct (C67_interchangeable aes F ps types1 types d1 d HC1 HC) as (_ & _ & X1 & _).
  rewrite X0, X1. auto.
Qed.
Print Assumptions C67_other_objects.
(** An object without registrations, and one with other types registered as well: the former
    cannot generate keys, the latter generates the same ones; both evaluate. *)
Definition xg_types : list cty := [TMod 64 77; TXor 128; ex_tuple; TInt 32].
Definition xg_d : dpf := Eval vm_compute in ex_create ex_F ex_ps xg_types.
Definition xg_d0 : dpf := Eval vm_compute in ex_create ex_F ex_ps [].
Example C67_nonvacuous :
  created ex_F ex_ps xg_types xg_d /\ created ex_F ex_ps [] xg_d0 /\ xg_d <> ex_d /\ xg_d0 <> ex_d /\
  is_ok (generate_keys ex_aes xg_d ex_alpha ex_beta 5 6) = true /\
  generate_keys ex_aes xg_d ex_alpha ex_beta 5 6 = generate_keys ex_aes ex_d ex_alpha ex_beta 5 6 /\
  generate_keys ex_aes xg_d0 ex_alpha ex_beta 5 6 = Err FAILED_PRECONDITION /\
  match evaluate_at ex_aes xg_d ex_tuple ex_k0 1 [37; 12], evaluate_at ex_aes xg_d0 ex_tuple ex_k1 1 [37; 12] return Prop with
  | Ok r0, Ok r1 => map (fun i => vadd ex_tuple (nth i r0 (vzero ex_tuple)) (nth i r1 (vzero ex_tuple))) [0; 1]%nat
                    = [VTup [VNum 1234; VNum 999999]; VTup [VNum 0; VNum 0]]
  | _, _ => False
  end.
Proof.
  split; [|split; [|split; [|split; [|split; [|split; [|split]]]]]].
  - exists (ex_create ex_F ex_ps []). split; [vm_compute; reflexivity|]. split; [repeat constructor|vm_compute; reflexivity].
  - exists (ex_create ex_F ex_ps []). split; [vm_compute; reflexivity|]. split; [constructor|vm_compute; reflexivity].
  - discriminate.
  - discriminate.
  - vm_compute. reflexivity.
  - vm_compute. reflexivity.
  - vm_compute. reflexivity.
  - vm_compute. reflexivity.
Qed.
