(** Histories of dense database builders (C31). *)
From Coq Require Import List NArith ZArith Lia Bool ZifyBool ZifyNat ZifyN.
From Verif Require Import Base ListUtil ValueTypesModel ValueTypesProofs PirDbModel PirSpec PirDbProofs.
Import ListNotations.
Ltac Zify.zify_post_hook ::= Z.div_mod_to_equations.
Open Scope N_scope.

Definition blocks (n : nat) : nat := Nat.div (n + 15) 16.
Lemma align_bytes_eq : forall n, N.of_nat n < 2 ^ 63 -> align_bytes (N.of_nat n) = N.of_nat (16 * blocks n).
Proof.
  intros n H. unfold align_bytes. change (2 ^ 63) with 9223372036854775808 in H.
  change P64 with 18446744073709551616. rewrite N.mod_small by lia.
  change (18446744073709551616 - 16) with (N.shiftl (N.ones 60) 4).
  assert (E : N.land (N.of_nat n + 15) (N.shiftl (N.ones 60) 4) = N.shiftl (N.shiftr (N.of_nat n + 15) 4) 4).
  { apply N.bits_inj. intros i. rewrite N.land_spec. destruct (N.lt_ge_cases i 4).
    - rewrite !N.shiftl_spec_low by assumption. apply andb_false_r.
    - rewrite !N.shiftl_spec_high' by assumption. rewrite N.shiftr_spec'. replace (i - 4 + 4) with i by lia.
      destruct (N.lt_ge_cases (i - 4) 60).
      + rewrite N.ones_spec_low by assumption. apply andb_true_r.
      + rewrite N.ones_spec_high by assumption. rewrite andb_false_r. symmetry.
        apply N.bits_above_log2.
        destruct (N.eq_dec (N.of_nat n + 15) 0); [lia|].
        apply N.lt_le_trans with 64; [|lia]. apply N.log2_lt_pow2; [lia|]. change (2 ^ 64) with 18446744073709551616. lia. }
  rewrite E, N.shiftl_mul_pow2, N.shiftr_div_pow2. change (2 ^ 4) with 16. unfold blocks. lia.
Qed.

(** The layout of the buffer: every value padded to whole blocks. *)
Definition padded (v : bytes) : bytes := v ++ repeat 0 (16 * blocks (length v) - length v).
Definition total_blocks (vs : list bytes) : nat := list_sum (map (fun v => blocks (length v)) vs).
Lemma padded_length : forall v, length (padded v) = (16 * blocks (length v))%nat.
Proof. intros v. unfold padded. rewrite app_length, repeat_length. unfold blocks. lia. Qed.
Lemma layout_length : forall vs, length (concat (map padded vs)) = (16 * total_blocks vs)%nat.
Proof.
  induction vs as [|v vs IH]; [reflexivity|]. cbn [map concat]. rewrite app_length, IH, padded_length.
  unfold total_blocks, list_sum. cbn [map fold_right]. lia.
Qed.
Lemma total_blocks_app : forall a b, total_blocks (a ++ b) = (total_blocks a + total_blocks b)%nat.
Proof. intros. unfold total_blocks. rewrite map_app, list_sum_app. reflexivity. Qed.
Fixpoint view_list (head : N) (off : nat) (vs : list bytes) : list (option N * nat) :=
  match vs with
  | [] => []
  | v :: vs' => (match v with [] => None | _ => Some (head + N.of_nat (16 * off)) end, length v)
                :: view_list head (off + blocks (length v)) vs'
  end.
Lemma view_list_app : forall head b a off,
  view_list head off (a ++ b) = view_list head off a ++ view_list head (off + total_blocks a) b.
Proof.
  intros head b a. induction a as [|v a IH]; intros off; cbn [app view_list].
  - unfold total_blocks, list_sum. cbn [map fold_right]. rewrite Nat.add_0_r. reflexivity.
  - rewrite IH. cbn [app]. do 3 f_equal. unfold total_blocks, list_sum. cbn [map fold_right]. lia.
Qed.

Record dbi (a : alloc) (cap : N) (vs : list bytes) (d : db) : Prop := {
  i_buf : db_buffer d = concat (map padded vs);
  i_cap : db_cap d = cap;
  i_head : db_head d = a_head a;
  i_views : db_views d = view_list (a_head a) 0 vs;
  i_max : db_max d = N.of_nat (longest vs)
}.
Lemma longest_app : forall a b, longest (a ++ b) = Nat.max (longest a) (longest b).
Proof.
  induction a as [|v a IH]; intros b; cbn [app]; [reflexivity|].
  change (longest (v :: a ++ b)) with (Nat.max (length v) (longest (a ++ b))).
  change (longest (v :: a)) with (Nat.max (length v) (longest a)). rewrite IH. lia.
Qed.

Lemma append_ok : forall a cap vs d v, dbi a cap vs d -> N.of_nat (length v) < 2 ^ 63 ->
  N.of_nat (total_blocks vs + blocks (length v)) <= cap ->
  exists d', append a d v = Ok d' /\ dbi a cap (vs ++ [v]) d'.
Proof.
  intros a cap vs d v [HB HC HH HV HM] Hv Hcap. unfold append. rewrite HB, HC, HH, HV, HM, layout_length.
  replace (N.of_nat (16 * total_blocks vs) / 16) with (N.of_nat (total_blocks vs)) by lia.
  rewrite align_bytes_eq by assumption. cbn zeta.
  assert (HMx : longest (vs ++ [v]) = Nat.max (longest vs) (length v)).
  { rewrite longest_app. unfold longest at 2. cbn [fold_right]. lia. }
  assert (HCx : concat (map padded (vs ++ [v])) = concat (map padded vs) ++ padded v).
  { rewrite map_app, concat_app. cbn [map concat]. rewrite app_nil_r. reflexivity. }
  destruct (N.eqb_spec (N.of_nat (length v)) 0) as [E|E].
  - assert (v = []) as -> by (destruct v; [reflexivity|cbn [length] in E; lia]).
    eexists. split; [reflexivity|]. split; cbn [db_buffer db_cap db_head db_views db_max].
    + rewrite HCx. unfold padded at 3. cbn. rewrite app_nil_r. reflexivity.
    + reflexivity.
    + reflexivity.
    + rewrite view_list_app. reflexivity.
    + rewrite HMx. cbn [length]. lia.
  - replace (N.of_nat (16 * blocks (length v)) / 16) with (N.of_nat (blocks (length v))) by lia.
    destruct (N.ltb_spec cap (N.of_nat (total_blocks vs) + N.of_nat (blocks (length v)))); [lia|]. cbn [negb check bind].
    destruct (N.leb_spec (N.of_nat (total_blocks vs) + N.of_nat (blocks (length v))) cap); [|lia].
    rewrite N.eqb_refl. cbn [check bind].
    replace (N.to_nat (16 * N.of_nat (blocks (length v)))) with (16 * blocks (length v))%nat by lia.
    replace (N.to_nat (16 * N.of_nat (total_blocks vs))) with (16 * total_blocks vs)%nat by lia.
    assert (HL : (length v <= 16 * blocks (length v))%nat) by (unfold blocks; lia).
    rewrite store_ok by (rewrite app_length, layout_length, repeat_length; lia).
    cbn [bind]. eexists. split; [reflexivity|]. split; cbn [db_buffer db_cap db_head db_views db_max].
    + rewrite HCx. rewrite <- layout_length, firstn_app, Nat.sub_diag, firstn_all. cbn [firstn]. rewrite app_nil_r. f_equal.
      change (padded v) with (v ++ repeat 0 (16 * blocks (length v) - length v)). f_equal. rewrite skipn_app, skipn_all2 by lia. cbn [app].
      rewrite layout_length. replace (16 * total_blocks vs + length v - 16 * total_blocks vs)%nat with (length v) by lia.
      replace (16 * blocks (length v))%nat with (length v + (16 * blocks (length v) - length v))%nat at 1 by lia.
      rewrite repeat_app, skipn_app, repeat_length, Nat.sub_diag, skipn_all2 by (rewrite repeat_length; lia). reflexivity.
    + reflexivity.
    + reflexivity.
    + rewrite view_list_app. f_equal. cbn [view_list]. rewrite Nat.add_0_l. destruct v; [cbn [length] in E; lia|].
      do 3 f_equal. lia.
    + rewrite HMx. destruct (N.ltb_spec (N.of_nat (longest vs)) (N.of_nat (length v))); lia.
Qed.

Lemma appends_ok : forall a cap vs done d, dbi a cap done d ->
  Forall (fun v => N.of_nat (length v) < 2 ^ 63) vs -> N.of_nat (total_blocks (done ++ vs)) <= cap ->
  exists d', foldM (append a) vs d = Ok d' /\ dbi a cap (done ++ vs) d'.
Proof.
  intros a cap vs. induction vs as [|v vs IH]; intros done d HI HF Hcap; cbn [foldM].
  - rewrite app_nil_r. eauto.
  - inversion HF; subst. rewrite !total_blocks_app in Hcap. unfold total_blocks at 2 in Hcap. unfold list_sum in Hcap. cbn [map fold_right] in Hcap.
    change (fold_right Nat.add 0%nat (map (fun v => blocks (length v)) vs)) with (total_blocks vs) in Hcap.
    destruct (append_ok a cap done d v HI H1) as (d1 & E1 & HI1); [lia|]. rewrite E1. cbn [bind].
    replace (done ++ v :: vs) with ((done ++ [v]) ++ vs) by (rewrite <- app_assoc; reflexivity).
    apply IH; auto. rewrite !total_blocks_app. unfold total_blocks at 2. unfold list_sum. cbn [map fold_right]. lia.
Qed.

(** Reading the records back. *)
Lemma content_ok : forall d vs, db_buffer d = concat (map padded vs) ->
  db_views d = view_list (db_head d) 0 vs ->
  exists views, content d = Ok views /\ map v_data views = vs /\
    Forall2 (fun x w => fst w = match v_data x with [] => None | _ => Some (v_addr x) end) views (db_views d).
Proof.
  intros d vs HB HV. unfold content. rewrite HV.
  assert (HI : forall vs' done, vs = done ++ vs' ->
    exists views, mapM (deref d) (view_list (db_head d) (total_blocks done) vs') = Ok views /\ map v_data views = vs' /\
     Forall2 (fun x w => fst w = match v_data x with [] => None | _ => Some (v_addr x) end) views
       (view_list (db_head d) (total_blocks done) vs')).
  { induction vs' as [|v vs' IH]; intros done E; cbn [view_list mapM].
    - exists []. repeat split. constructor.
    - destruct (IH (done ++ [v])) as (views & EV & EM & EF); [rewrite E, <- app_assoc; reflexivity|].
      rewrite total_blocks_app in EV, EF. unfold total_blocks at 2 in EV. unfold total_blocks at 2 in EF.
      unfold list_sum in EV, EF. cbn [map fold_right] in EV, EF. rewrite Nat.add_0_r in EV, EF.
      assert (HD : exists x, deref d (match v with [] => None | _ => Some (db_head d + N.of_nat (16 * total_blocks done)) end, length v) = Ok x
                 /\ v_data x = v /\ (v <> [] -> v_addr x = db_head d + N.of_nat (16 * total_blocks done))).
      { destruct v as [|b v0]; [eexists; split; [reflexivity|]; split; [reflexivity|congruence]|].
        set (v := b :: v0) in *. unfold deref.
        destruct (N.ltb_spec (db_head d + N.of_nat (16 * total_blocks done)) (db_head d)); [lia|].
        replace (N.to_nat (db_head d + N.of_nat (16 * total_blocks done) - db_head d)) with (16 * total_blocks done)%nat by lia.
        rewrite HB, E. rewrite map_app, concat_app. cbn [map concat].
        assert (HL : (length v <= 16 * blocks (length v))%nat) by (unfold blocks; lia).
        rewrite load_ok by (rewrite !app_length, layout_length, padded_length; lia).
        cbn [bind]. eexists. split; [reflexivity|]. cbn [v_data v_addr]. split; [|reflexivity].
        rewrite <- layout_length, skipn_app, skipn_all, Nat.sub_diag. cbn [skipn app].
        unfold padded at 1. rewrite <- app_assoc, firstn_app, Nat.sub_diag, firstn_all. cbn [firstn]. apply app_nil_r. }
      destruct HD as (x & EX & ED & EA). rewrite EX. cbn [bind]. rewrite EV. cbn [bind]. exists (x :: views).
      split; [reflexivity|]. split; [cbn [map]; congruence|]. constructor; [|assumption]. cbn [fst]. rewrite ED.
      destruct v; [reflexivity|]. rewrite EA by discriminate. reflexivity. }
  apply (HI vs [] eq_refl).
Qed.

Lemma view_list_length : forall head vs off, length (view_list head off vs) = length vs.
Proof. intros head. induction vs as [|v vs IH]; intros off; cbn [view_list length]; auto. Qed.
Lemma dbi_holds : forall a cap vs d, dbi a cap vs d -> holds d vs.
Proof.
  intros a cap vs d [HB HC HH HV HM]. split; [|split; [|assumption]].
  - rewrite <- HH in HV. destruct (content_ok d vs HB HV) as (views & E1 & E2 & _). eauto.
  - unfold db_size. rewrite HV. apply view_list_length.
Qed.

(** Build on a builder whose counter is right. *)
Lemma build_ok : forall a b, alloc_ok a -> b_built b = false ->
  b_total b = Z.of_nat (16 * total_blocks (b_values b)) -> (b_total b < 4611686018427387904)%Z ->
  exists d, build a b = (Ok d, {| b_values := []; b_total := b_total b; b_built := true |}) /\
            dbi a (a_cap a (N.of_nat (total_blocks (b_values b)))) (b_values b) d.
Proof.
  intros a b HA HB HT Hlt. unfold build. rewrite HB. unfold new_db, num_blocks. rewrite HT.
  rewrite Z.mod_small by lia.
  rewrite (N.mod_small (Z.to_N (Z.of_nat (16 * total_blocks (b_values b))) + 15)) by (change P64 with 18446744073709551616; lia).
  replace ((Z.to_N (Z.of_nat (16 * total_blocks (b_values b))) + 15) / 16) with (N.of_nat (total_blocks (b_values b))) by lia.
  cbn zeta. change (2 ^ 59) with 576460752303423488.
  destruct (N.leb_spec 576460752303423488 (N.of_nat (total_blocks (b_values b)))); [lia|]. cbn [bind].
  match goal with |- context [foldM (append a) _ ?d] => set (d0 := d) end.
  assert (HI : dbi a (a_cap a (N.of_nat (total_blocks (b_values b)))) [] d0) by (split; reflexivity).
  destruct (appends_ok a _ (b_values b) [] d0 HI) as (d' & E & HI').
  - apply Forall_forall. intros v Hv. change (2 ^ 63) with 9223372036854775808.
    assert (blocks (length v) <= total_blocks (b_values b))%nat.
    { clear - Hv. induction (b_values b) as [|w l IH]; [destruct Hv|]. unfold total_blocks, list_sum. cbn [map fold_right].
      change (fold_right Nat.add 0%nat (map (fun v => blocks (length v)) l)) with (total_blocks l).
      destruct Hv as [->|Hv]; [lia|]. specialize (IH Hv). lia. }
    unfold blocks in *. lia.
  - apply HA.
  - rewrite E. exists d'. split; [reflexivity|exact HI'].
Qed.

(** ** Histories *)
Definition cost (vs : list bytes) : N := fold_right (fun v n => N.of_nat (length v) + 16 + n) 0 vs.
Lemma cost_app : forall a b, cost (a ++ b) = cost a + cost b.
Proof.
  induction a as [|v a IH]; intros b; cbn [app]; [reflexivity|].
  change (cost (v :: a ++ b)) with (N.of_nat (length v) + 16 + cost (a ++ b)).
  change (cost (v :: a)) with (N.of_nat (length v) + 16 + cost a). rewrite IH. lia.
Qed.
Lemma cost_blocks : forall vs, N.of_nat (16 * total_blocks vs) <= cost vs.
Proof.
  induction vs as [|v vs IH]; [discriminate|].
  change (total_blocks (v :: vs)) with (blocks (length v) + total_blocks vs)%nat.
  change (cost (v :: vs)) with (N.of_nat (length v) + 16 + cost vs).
  assert (16 * blocks (length v) <= length v + 15)%nat by (unfold blocks; lia). lia.
Qed.

Record bsim (bound : N) (b : builder) (g : gbuilder) : Prop := {
  s_built : b_built b = g_built g;
  s_vals : g_built g = false -> b_values b = g_vals g;
  s_total : b_total b = Z.of_nat (16 * total_blocks (g_vals g));
  s_cost : cost (g_vals g) <= bound
}.
Lemma bsim_mono : forall x y b g, x <= y -> bsim x b g -> bsim y b g.
Proof. intros x y b g H [H1 H2 H3 H4]. split; auto. lia. Qed.
Lemma Forall2_nth : forall A B (R : A -> B -> Prop) la lb i, Forall2 R la lb ->
  match nth_error la i, nth_error lb i with Some a, Some b => R a b | None, None => True | _, _ => False end.
Proof. intros A B R la lb i H. revert i. induction H; intros [|i]; cbn [nth_error]; auto. apply IHForall2. Qed.
Lemma Forall2_set : forall A B (R : A -> B -> Prop) la lb i a b, Forall2 R la lb -> R a b -> Forall2 R (set_nth la i a) (set_nth lb i b).
Proof. intros A B R la lb i a b H. revert i. induction H; intros [|i] HR; cbn [set_nth]; constructor; auto. Qed.

Lemma set_nth_same : forall A (l : list A) i a, nth_error l i = Some a -> set_nth l i a = l.
Proof. induction l as [|x l IH]; intros [|i] a H; cbn [nth_error set_nth] in *; try discriminate; [congruence|]. f_equal. auto. Qed.
Lemma bstep_sim : forall x bs gs o, Forall2 (bsim x) bs gs -> x + op_bytes o < 2 ^ 62 -> allocs_ok [o] ->
  agrees (fst (bstep bs o)) (fst (gstep gs o)) /\ Forall2 (bsim (x + op_bytes o)) (snd (bstep bs o)) (snd (gstep gs o)).
Proof.
  intros x bs gs o HS Hx HA. change (2 ^ 62) with 4611686018427387904 in Hx.
  assert (HS' : Forall2 (bsim (x + op_bytes o)) bs gs) by (clear - HS; induction HS; constructor; auto; eapply bsim_mono; [|eassumption]; lia).
  destruct o as [|i v|i|i|i a]; cbn [bstep gstep op_bytes] in *.
  - split; [reflexivity|]. cbn [snd]. apply Forall2_app; auto. repeat constructor. cbn. lia.
  - pose proof (Forall2_nth _ _ _ _ _ i HS) as HN.
    destruct (nth_error bs i) as [b|], (nth_error gs i) as [g|]; try contradiction; cbn [fst snd]; (split; [reflexivity|]); auto.
    destruct HN as [H1 H2 H3 H4]. apply Forall2_set; auto.
    pose proof (cost_blocks (g_vals g)). unfold insert.
    split; cbn [b_built b_values b_total g_built g_vals]; auto.
    + intros E. rewrite H2 by assumption. reflexivity.
    + rewrite align_bytes_eq by (change (2 ^ 63) with 9223372036854775808; lia). rewrite H3, total_blocks_app.
      unfold total_blocks at 3. unfold list_sum. cbn [map fold_right].
      assert (16 * blocks (length v) <= length v + 15)%nat by (unfold blocks; lia).
      unfold to_int64. rewrite Z.mod_small; lia.
    + rewrite cost_app. cbn [cost fold_right]. lia.
  - pose proof (Forall2_nth _ _ _ _ _ i HS) as HN.
    destruct (nth_error bs i) as [b|], (nth_error gs i) as [g|]; try contradiction; cbn [fst snd]; (split; [reflexivity|]); auto.
    apply Forall2_set; auto. split; cbn; auto. lia.
  - pose proof (Forall2_nth _ _ _ _ _ i HS') as HN.
    destruct (nth_error bs i) as [b|], (nth_error gs i) as [g|]; try contradiction; cbn [fst snd]; (split; [reflexivity|]); auto.
    apply Forall2_app; auto. constructor; [|constructor]. destruct HN as [H1 H2 H3 H4]. split; cbn; auto.
  - pose proof (Forall2_nth _ _ _ _ _ i HS) as HN.
    destruct (nth_error bs i) as [b|] eqn:Eb0, (nth_error gs i) as [g|] eqn:Eg0; try contradiction; cbn [fst snd]; [|split; [reflexivity|]; auto].
    destruct HN as [H1 H2 H3 H4]. destruct (g_built g) eqn:Eb.
    + unfold build. rewrite H1. cbn [fst snd]. split; [reflexivity|].
      rewrite set_nth_same by assumption. assumption.
    + pose proof (cost_blocks (g_vals g)).
      destruct (build_ok a b) as (d & E & HI); auto.
      * eapply HA. left. reflexivity.
      * rewrite H2 by reflexivity. assumption.
      * rewrite H3. lia.
      * rewrite E. cbn [fst snd]. split.
        -- exists d. split; [reflexivity|]. rewrite H2 in HI by reflexivity. eapply dbi_holds. eassumption.
        -- apply Forall2_set; auto. split; cbn [b_built b_values b_total g_built g_vals]; auto; try discriminate. lia.
Qed.

Lemma brun_sim : forall ops x bs gs, Forall2 (bsim x) bs gs -> x + history_bytes ops < 2 ^ 62 -> allocs_ok ops ->
  Forall2 agrees (brun bs ops) (grun gs ops).
Proof.
  induction ops as [|o ops IH]; intros x bs gs HS Hx HA; cbn [brun grun]; [constructor|].
  change (history_bytes (o :: ops)) with (op_bytes o + history_bytes ops) in Hx.
  destruct (bstep_sim x bs gs o HS) as [H1 H2]; [lia| |].
  - intros i a [->|[]]. eapply HA. left. reflexivity.
  - destruct (bstep bs o) as [r bs'], (gstep gs o) as [g gs']. cbn [fst snd] in *. constructor; auto.
    apply (IH (x + op_bytes o)); auto; [lia|]. intros i a Hi. eapply HA. right. eassumption.
Qed.
