(** Contexts after a failed call, and the MIC gate. *)
From Coq Require Import List NArith ZArith QArith Bool Lia ZifyBool ZifyNat ZifyN.
From Verif Require Import Base ListUtil ValueTypesModel ValueTypesSpec TypeProofs DpfGen DpfModel DpfTree DpfWf DpfEval DpfCtx DpfSpec DpfHist DpfReach DpfFacts DcfModel
  FaultModel FaultSpec FaultProofs.
Import ListNotations.
Open Scope N_scope.

Section Retry.
Variable aes : N -> N -> N.
Variable d : dpf.
Hypothesis W : wf d.

Lemma partial_again : forall key c prefixes h u st c1, ctx_inv aes d key c -> (h < nlevels d)%nat ->
  Forall (fun p => p < 2 ^ N.of_nat (h2t d h)) prefixes ->
  compute_partial_evaluations aes d prefixes h u c = Ok (st, c1) ->
  compute_partial_evaluations aes d prefixes h u c1 = Ok (st, c1) /\ c1 = with_partials aes d key c prefixes h u.
Proof using W.
  intros key c prefixes h u st c1 I Hh HF H. rewrite (compute_partial_eq aes d W key) in H by assumption.
  destruct (forallb (covered d c (h2t d h)) prefixes); [|discriminate]. injection H as <- <-. split; [|reflexivity].
  assert (I1 : ctx_inv aes d key (with_partials aes d key c prefixes h u)).
  { exact (with_partials_inv aes d key c prefixes h u (c_prev c) I Hh HF (inv_prev _ _ _ _ I)). }
  rewrite (compute_partial_eq aes d W key) by assumption.
  replace (forallb _ prefixes) with true; [reflexivity|]. symmetry. apply forallb_forall. intros p Hp.
  unfold covered. destruct u; cbn [with_partials c_partials c_plevel].
  - unfold lvl. rewrite Nat2Z.id, Nat.sub_diag. apply orb_true_iff. right. apply existsb_exists.
    eexists. split; [apply in_map; exact Hp|]. cbn [pe_prefix]. rewrite N.shiftr_0_r. apply N.eqb_refl.
  - reflexivity.
Qed.

Lemma until_again : forall key c T h prefixes st c1 l, ctx_inv aes d key c -> cty_ok T = true -> Forall (fun p => p < P128) prefixes ->
  is_ok (evaluate_until_checks d T h prefixes c) = true ->
  selected aes d (Z.to_nat h) (fst (build_prefix_map d prefixes (Z.to_nat (c_prev c)) [])) c = Ok (st, c1, l) ->
  evaluate_until aes d T h prefixes c1 = evaluate_until aes d T h prefixes c.
Proof using W.
  intros key c T h prefixes st c1 l I Hok HP HK HS.
  destruct (evaluate_until_checks d T h prefixes c) as [g| | |] eqn:EC; try discriminate. clear HK.
  destruct (until_checks_inv d W _ _ _ _ _ Hok EC) as (Hh & _ & Ho & He & HF & _ & _ & _ & HV).
  destruct (build_prefix_map d prefixes (Z.to_nat (c_prev c)) []) as [tis pm] eqn:EB. cbn [fst] in HS.
  assert (HS' := HS). unfold selected in HS. destruct (Nat.eqb (length tis) 0) eqn:EL.
  { injection HS as <- <- <-. reflexivity. }
  destruct (compute_partial_evaluations aes d tis (Z.to_nat (c_prev c)) _ c) as [[st' c']| | |] eqn:EP; cbn [bind] in HS; try discriminate.
  destruct (atz_or_ub (d_h2t d) (c_prev c')) as [l'| | |] eqn:EA; cbn [bind] in HS; try discriminate. injection HS as -> -> ->.
  assert (Hne : prefixes <> []) by (intros ->; cbn in EB; injection EB as <- <-; discriminate).
  assert (Hpos : (0 <= c_prev c)%Z) by (destruct (Z.lt_ge_cases (c_prev c) 0) as [HX|]; [apply He in HX; congruence|assumption]).
  assert (Hq : (Z.to_nat (c_prev c) < nlevels d)%nat) by lia.
  assert (HT : Forall (fun p => p < 2 ^ N.of_nat (h2t d (Z.to_nat (c_prev c)))) tis).
  { destruct (build_prefix_map_spec _ _ _ _ _ _ EB) as ((suf & Hsuf & Hin) & _). cbn [app] in Hsuf. subst suf.
    apply Forall_forall. intros t Ht. destruct (Hin t Ht) as (p & Hpin & ->). apply tree_index_lt; auto.
    rewrite Forall_forall in HF, HP. apply HF; auto. }
  destruct (partial_again key c tis _ _ _ _ I Hq HT EP) as [EP1 E1].
  assert (Eprev : c_prev c1 = c_prev c) by (rewrite E1; reflexivity).
  assert (ES1 : selected aes d (Z.to_nat h) tis c1 = Ok (st, c1, l)).
  { unfold selected. rewrite EL, Eprev, EP1. cbn [bind]. rewrite EA. reflexivity. }
  assert (EC1 : evaluate_until_checks d T h prefixes c1 = Ok g).
  { rewrite <- EC. unfold evaluate_until_checks. rewrite Eprev. rewrite HV. replace (validate_evaluation_context d c1) with (Ok tt : res unit); [reflexivity|].
    symmetry. unfold validate_evaluation_context in HV |- *.
    replace (c_params c1) with (c_params c) by (rewrite E1; reflexivity). replace (c_key c1) with (c_key c) by (rewrite E1; reflexivity).
    rewrite Eprev. replace (c_plevel c1) with (c_prev c) by (rewrite E1; cbn [with_partials c_plevel]; lia).
    rewrite Z.ltb_irrefl, andb_false_r. cbn [negb check].
    destruct (check (Nat.eqb (length (c_params c)) (length (d_params d))) INVALID_ARGUMENT); try discriminate. cbn [bind] in HV |- *.
    destruct (parameters_match (d_params d) (c_params c)); try discriminate. cbn [bind] in HV |- *.
    destruct (c_key c); try discriminate. cbn [bind] in HV |- *. destruct (validate_dpf_key d d0); try discriminate. cbn [bind] in HV |- *.
    destruct (check (negb (Z.of_nat (length (c_params c)) - 1 <=? c_prev c)%Z) INVALID_ARGUMENT); try discriminate. reflexivity. }
  unfold evaluate_until. rewrite EC, EC1, Eprev, EB. rewrite !update_eq, HS', ES1. reflexivity.
Qed.

Lemma at_again : forall key c T h points st c1, ctx_inv aes d key c -> (h < nlevels d)%nat -> level_type d h T ->
  evaluate_at_checks d (ctx_key c) (Z.of_nat h) points = Ok tt -> Nat.eqb (length points) 0 = false ->
  compute_partial_evaluations aes d (evaluate_at_indices d T (Z.to_nat (Z.of_nat h)) points) (Z.to_nat (Z.of_nat h)) true c = Ok (st, c1) ->
  evaluate_at_ctx aes d T (Z.of_nat h) points c1 = evaluate_at_ctx aes d T (Z.of_nat h) points c.
Proof using W.
  intros key c T h points st c1 I Hh HT HK EL0 HP. rewrite Nat2Z.id in HP.
  destruct (at_checks_inv d W _ _ _ HK) as (_ & _ & HF). rewrite Nat2Z.id in HF.
  assert (HFt : Forall (fun p => p < 2 ^ N.of_nat (h2t d h)) (evaluate_at_indices d T h points)).
  { rewrite evaluate_at_indices_map by auto. rewrite Forall_map. eapply Forall_impl; [|exact HF]. cbv beta. intros x Hx. apply tree_index_lt; auto. }
  destruct (partial_again key c _ h true st c1 I Hh HFt HP) as [HP1 E1].
  unfold evaluate_at_ctx. replace (ctx_key c1) with (ctx_key c) by (rewrite E1; reflexivity). rewrite HK.
  rewrite EL0.
  rewrite Nat2Z.id, HP, HP1. reflexivity.
Qed.

(** After a level has been evaluated, no call for that level succeeds. *)
Lemma level_used : forall T h prefixes c, (0 <= h)%Z -> c_prev c = h -> cty_ok T = true ->
  forall r, fst (evaluate_until aes d T h prefixes c) <> Ok r.
Proof using W.
  intros T h prefixes c H0 Hp Hok r H. unfold evaluate_until in H.
  destruct (evaluate_until_checks d T h prefixes c) as [g| | |] eqn:EC; try discriminate H.
  destruct (until_checks_inv d W _ _ _ _ _ Hok EC) as (_ & _ & Ho & _). lia.
Qed.
End Retry.

Section Mic.
Variable aes : N -> N -> N.
Variable status : nat -> Z.
Variable random : nat -> N.

Lemma bind_f_ok : forall A B (m : io A) (f : A -> io B) n x n', bind_f m f n = (Ok x, n') ->
  exists a n1, m n = (Ok a, n1) /\ f a n1 = (Ok x, n').
Proof. intros A B m f n x n' H. unfold bind_f in H. destruct (m n) as [[a| | |] n1]; try discriminate. exists a, n1. auto. Qed.
Lemma reported_le : forall A (m : io A) r n x n', reported status m r -> m n = (x, n') -> (n <= n')%nat.
Proof. intros A m r n x n' H E. destruct (H n) as [L _]. rewrite E in L. exact L. Qed.

Lemma keys_calls : forall d alpha beta n x n', generate_keys_f aes status random d alpha beta n = (Ok x, n') -> (n + 2 <= n')%nat.
Proof.
  intros d alpha beta n x n' H. unfold generate_keys_f in H.
  do 3 (apply bind_f_ok in H; destruct H as (? & ? & E & H); unfold lift in E; injection E as _ <-).
  do 2 (apply bind_f_ok in H; destruct H as (? & ? & E & H); unfold rand_uint128_f in E; injection E as _ <-).
  apply bind_f_ok in H. destruct H as ([g cws] & n1 & E1 & H). apply (reported_le _ _ _ _ _ _ (rep_loop aes status random d _ _ _ _ _))  in E1.
  apply bind_f_ok in H. destruct H as (b & n2 & E2 & H). unfold lift in E2. injection E2 as _ <-.
  apply bind_f_ok in H. destruct H as (l & n3 & E3 & H). apply (reported_le _ _ _ _ _ _ (rep_value_correction aes status random d _ _ _ _ _ _)) in E3.
  unfold lift in H. injection H as _ <-. lia.
Qed.
Lemma dcf_keys_calls : forall c alpha beta n x n', dcf_generate_keys_f aes status random c alpha beta n = (Ok x, n') -> (n + 2 <= n')%nat.
Proof.
  intros c alpha beta n x n' H. unfold dcf_generate_keys_f in H. apply bind_f_ok in H. destruct H as (? & ? & E & H).
  unfold lift in E. injection E as _ <-. exact (keys_calls _ _ _ _ _ _ H).
Qed.

Hypothesis H01 : forall i, status i = 0%Z \/ status i = 1%Z.
Lemma rep_rand128 : forall n, reported_at status n (rand128_f status random n) (Ok (random n)).
Proof using All.
  intros n. unfold rand128_f. split; [cbn; lia|]. cbn [fst snd]. destruct (H01 n) as [E|E]; rewrite E; cbn [Z.eqb Pos.eqb].
  - right. split; [|reflexivity]. exists n. split; [reflexivity|]. split; [lia|]. split; [intros i Hi; lia|rewrite E; discriminate].
  - left. split; [|reflexivity]. intros i Hi. assert (i = n) as -> by lia. exact E.
Qed.

Lemma rep_shares : forall group r_in intervals r_out i k,
  reported_at status (k + i) (map_f (fun ir : interval * N =>
              let z := mic_correction group r_in (snd ir) (fst ir) in
              bind_f (rand128_f status random) (fun rnd =>
              let z0 := w128 rnd mod group in
              let z1 := w128 (z + P128 - z0) mod group in
              lift (Ok (u128_integer z0, u128_integer z1)))) (combine intervals r_out) (k + i)%nat)
   (Ok (zip2 (fun (ir : nat * interval) r =>
            let z := mic_correction group r_in r (snd ir) in
            let z0 := w128 (random (k + fst ir)%nat) mod group in
            let z1 := w128 (z + P128 - z0) mod group in
            (u128_integer z0, u128_integer z1))
         (combine (seq i (length intervals)) intervals) r_out)).
Proof using All.
  intros group r_in intervals. induction intervals as [|iv intervals IH]; intros r_out i k; [apply (rep_lift aes status random)|].
  destruct r_out as [|r r_out]; [apply (rep_lift aes status random)|].
  cbn [combine map_f length seq zip2 fst snd].
  match goal with |- reported_at _ _ (bind_f ?m ?f _) (Ok (?a :: ?l)) => apply (rep_bind_at aes status random _ _ m f (Ok a) (fun a0 => Ok (a0 :: l))) end.
  - match goal with |- reported_at _ _ (bind_f ?m ?f _) (Ok ?a) => apply (rep_bind_at aes status random _ _ m f (Ok (random (k + i)%nat)) (fun _ => Ok a)) end.
    + apply rep_rand128.
    + intros b n' E _ _ _. injection E as <-. apply (rep_lift aes status random).
  - intros a n' E _ _ EM. apply bind_f_ok in EM. destruct EM as (a1 & n1 & E1 & E2). unfold rand128_f in E1. injection E1 as _ <-.
    unfold lift in E2. injection E2 as _ <-.
    match goal with |- reported_at _ _ (bind_f ?m ?f _) (Ok (_ :: ?l)) => apply (rep_bind_at aes status random _ _ m f (Ok l) (fun l0 => Ok (a :: l0))) end.
    + replace (S (k + i)) with (k + S i)%nat by lia. apply IH.
    + intros l n2 _ _ _ _. apply (rep_lift aes status random).
Qed.

Lemma rep_mic_keys : forall m r_in r_out n, status n = 1%Z -> status (S n) = 1%Z -> exists k, (n + 2 <= k)%nat /\
  reported_at status n (mic_gen_f aes status random m r_in r_out n)
    (mic_gen aes m r_in r_out (random n) (random (S n)) (fun i => random (k + i)%nat)).
Proof using All.
  intros m r_in r_out n H0 H1.
  set (G := dcf_generate_keys_f aes status random (dcf_register (TInt 128) (m_dcf m)) (w128 (group_of m - 1 + r_in) mod group_of m) (to_value (TInt 128) (VNum 1))).
  exists (Nat.max (n + 2) (snd (G n))). split; [lia|]. unfold mic_gen_f, mic_gen.
  apply (rep_bind_at aes status random); [apply (rep_lift aes status random)|]. intros u n' _ _ _ E. inversion E; subst n'. clear E.
  apply (rep_bind_at aes status random); [apply (rep_lift aes status random)|]. intros u1 n' _ _ _ E. inversion E; subst n'. clear E.
  apply (rep_bind_at aes status random); [apply (rep_lift aes status random)|]. intros u2 n' _ _ _ E. inversion E; subst n'. clear E.
  unfold dcf_generate_keys_t. apply (rep_bind_at aes status random); [apply (rep_dcf_keys aes status random); assumption|]. fold G.
  intros [key0 key1] n' _ _ _ E. pose proof (dcf_keys_calls _ _ _ _ _ _ E) as Hk. rewrite E. cbn [snd].
  rewrite Nat.max_r by lia.
  match goal with |- reported_at _ _ (bind_f ?mm ?f _) (Ok (?a, ?b)) => 
    match a with {| mk_dcf := _; mk_shares := map fst ?sh |} =>
      apply (rep_bind_at aes status random _ _ mm f (Ok sh) (fun shares => Ok ({| mk_dcf := key0; mk_shares := map fst shares |}, {| mk_dcf := key1; mk_shares := map snd shares |}))) end end.
  - pose proof (rep_shares (group_of m) r_in (mp_intervals (m_params m)) r_out 0 n') as HS. rewrite Nat.add_0_r in HS. exact HS.
  - intros sh n2 _ _ _ _. apply (rep_lift aes status random).
Qed.
End Mic.
