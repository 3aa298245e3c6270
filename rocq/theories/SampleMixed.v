(** Joint distribution of samples of different types from the same bytes. *)
From Coq Require Import List NArith ZArith Lia Bool FinFun ZifyBool ZifyNat ZifyN.
From Verif Require Import Base ListUtil ValueTypesModel ValueTypesSpec ValueTypesProofs
  ConvProofs SampleSpec SampleProofs SampleJoint.
Import ListNotations.
Ltac Zify.zify_post_hook ::= Z.div_mod_to_equations.
Open Scope N_scope.

(** ** Tuples with different bounds *)
Lemma in_mixed : forall bs xs, In xs (mixed_tuples bs) <-> Forall2 (fun x b => x < b) xs bs.
Proof.
  induction bs as [|b bs IH]; intros xs; cbn [mixed_tuples].
  - split; [intros [<-|[]]; constructor|]. intros H. inversion H. left; auto.
  - rewrite in_flat_map. split.
    + intros (x & Hx & H). apply in_map_iff in H. destruct H as (ys & <- & Hy).
      apply IH in Hy. apply in_all_below in Hx. constructor; auto.
    + intros H. inversion H as [|x b' xs' bs' Hx Hxs]; subst. exists x. split; [apply in_all_below; auto|].
      apply in_map. apply IH. auto.
Qed.
Lemma mixed_length : forall bs, N.of_nat (length (mixed_tuples bs)) = productN bs.
Proof.
  induction bs as [|b bs IH]; [reflexivity|]. cbn [mixed_tuples productN fold_right]. fold (productN bs).
  rewrite <- (N.mul_1_r (N.of_nat _)), <- (sumN_const _ 1), sumN_flat_map.
  rewrite (sumN_ext _ _ (fun _ => productN bs)).
  - rewrite sumN_const, all_below_length. lia.
  - intros x _. rewrite map_map, sumN_const, IH. lia.
Qed.
Lemma sum_mixed_cons : forall b bs f,
  sumN (map f (mixed_tuples (b :: bs))) = sum_to (fun v => sumN (map (fun vs => f (v :: vs)) (mixed_tuples bs))) b.
Proof.
  intros. cbn [mixed_tuples]. rewrite sumN_flat_map. apply sumN_ext. intros x _. rewrite map_map. reflexivity.
Qed.
Lemma NoDup_append : forall A (a b : list A), NoDup a -> NoDup b -> (forall x, In x a -> ~ In x b) -> NoDup (a ++ b).
Proof.
  intros A a b Ha Hb H. induction Ha as [|x a Hx Ha IH]; [exact Hb|]. cbn [app]. constructor.
  - rewrite in_app_iff. intros [Hi|Hi]; [contradiction|]. apply (H x); [left; auto|exact Hi].
  - apply IH. intros y Hy. apply H. right; auto.
Qed.
Lemma NoDup_flat_map : forall A B (f : A -> list B) l, NoDup l -> (forall x, In x l -> NoDup (f x)) ->
  (forall x y z, In x l -> In y l -> In z (f x) -> In z (f y) -> x = y) -> NoDup (flat_map f l).
Proof.
  intros A B f l H1 H2 H3. induction H1 as [|a l Ha Hl IH]; [constructor|]. cbn [flat_map].
  apply NoDup_append.
  - apply H2. left; auto.
  - apply IH; intros; [apply H2; right; auto|eapply H3; eauto; right; auto].
  - intros z Hz Hin. apply in_flat_map in Hin. destruct Hin as (y & Hy & Hyz).
    assert (a = y) by (eapply H3; eauto; [left; auto|right; auto]). subst y. contradiction.
Qed.
Lemma all_below_NoDup : forall n, NoDup (all_below n).
Proof.
  intros n. unfold all_below. apply Injective_map_NoDup; [|apply seq_NoDup].
  intros a b H. lia.
Qed.
Lemma mixed_NoDup : forall bs, NoDup (mixed_tuples bs).
Proof.
  induction bs as [|b bs IH]; cbn [mixed_tuples]; [constructor; [intros []|constructor]|].
  apply NoDup_flat_map; [apply all_below_NoDup| |].
  - intros x _. apply Injective_map_NoDup; auto. intros u v H. congruence.
  - intros x y z _ _ Hx Hy. apply in_map_iff in Hx, Hy. destruct Hx as (u & <- & _), Hy as (v & Hv & _). congruence.
Qed.
Lemma tuples_mixed : forall k n, tuples k n = mixed_tuples (repeat n k).
Proof. induction k as [|k IH]; intros n; [reflexivity|]. cbn [tuples repeat mixed_tuples]. rewrite IH. reflexivity. Qed.

(** A last coordinate that is not looked at. *)
Lemma count_mixed_last : forall bs b (p : list N -> bool),
  count (fun xs => p (removelast xs)) (mixed_tuples (bs ++ [b])) = b * count p (mixed_tuples bs).
Proof.
  induction bs as [|c bs IH]; intros b p; rewrite !count_sum.
  - cbn [app]. rewrite sum_mixed_cons. unfold sum_to.
    rewrite (sumN_ext _ _ (fun _ => if p [] then 1 else 0)).
    + rewrite sumN_const, all_below_length. cbn [mixed_tuples map]. rewrite sumN_cons. change (sumN []) with 0. lia.
    + intros x _. cbn [mixed_tuples map removelast]. rewrite sumN_cons. change (sumN []) with 0. lia.
  - cbn [app]. rewrite !sum_mixed_cons. unfold sum_to. rewrite <- sumN_mul. apply sumN_ext. intros x _.
    rewrite <- !count_sum. rewrite <- (IH b (fun xs => p (x :: xs))). apply count_ext. intros xs Hxs.
    apply in_mixed in Hxs. destruct xs as [|y xs]; [|reflexivity].
    inversion Hxs as [H|]. destruct bs; discriminate.
Qed.

(** ** The sampling loop *)
(** A leaf: the width of its base integer and its modulus. *)
Definition leaf : Type := N * N.
Definition leaf_fits (l : leaf) : Prop := fst l <= 128 /\ 0 < snd l <= 2 ^ fst l.
Definition widths_of (ls : list leaf) : list N := map (fun l => 2 ^ fst l) ls.
Definition moduli_of (ls : list leaf) : list N := map snd ls.

(** As many random words as leaves; the last one is not used. *)
Fixpoint mixed_samples (ls : list leaf) (r : N) (xs : list N) : list N :=
  match ls, xs with
  | l :: ls', x :: xs' => r mod snd l :: mixed_samples ls' ((r / snd l mod 2 ^ (128 - fst l)) * 2 ^ fst l + x) xs'
  | _, _ => []
  end.

Definition mways (ls : list leaf) (vs : list N) (r : N) : N :=
  count (fun xs => same_list (mixed_samples ls r xs) vs) (mixed_tuples (widths_of ls)).
Definition mtotal (ls : list leaf) (M : N) (vs : list N) : N := sum_to (mways ls vs) M.
Definition mdev (ls : list leaf) (M : N) (vs : list N) : N :=
  dist (productN (moduli_of ls) * mtotal ls M vs) (M * productN (widths_of ls)).
Definition mdist (ls : list leaf) (M : N) : N := sumN (map (mdev ls M) (mixed_tuples (moduli_of ls))).

Lemma mways_cons : forall l ls v vs r,
  mways (l :: ls) (v :: vs) r
  = if r mod snd l =? v then sum_to (fun x => mways ls vs (r / snd l mod 2 ^ (128 - fst l) * 2 ^ fst l + x)) (2 ^ fst l) else 0.
Proof.
  intros l ls v vs r. unfold mways at 1. rewrite count_sum. cbn [widths_of map]. rewrite sum_mixed_cons.
  fold (widths_of ls). destruct (r mod snd l =? v) eqn:E.
  - apply sum_to_ext. intros x _. unfold mways. rewrite count_sum. apply sumN_ext. intros xs _.
    cbn [mixed_samples same_list]. rewrite E. reflexivity.
  - unfold sum_to.
    rewrite (sumN_ext _ _ (fun _ => 0)).
    + rewrite sumN_const. lia.
    + intros x _. rewrite (sumN_ext _ _ (fun _ => 0)).
      * rewrite sumN_const. lia.
      * intros xs _. cbn [mixed_samples same_list]. rewrite E. reflexivity.
Qed.

Lemma fits_P : forall l, leaf_fits l -> 2 ^ 128 = 2 ^ (128 - fst l) * 2 ^ fst l.
Proof. intros l [H _]. rewrite <- N.pow_add_r. f_equal. lia. Qed.

Lemma mtotal_cons : forall l ls M v vs, leaf_fits l -> v < snd l ->
  mtotal (l :: ls) M (v :: vs)
  = residues (snd l) M v / 2 ^ (128 - fst l) * mtotal ls (2 ^ 128) vs
    + mtotal ls (residues (snd l) M v mod 2 ^ (128 - fst l) * 2 ^ fst l) vs.
Proof.
  intros l ls M v vs Hl Hv. unfold mtotal at 1. pose proof (fits_P l Hl) as HP.
  pose proof (pow2_pos (128 - fst l)) as HS. destruct Hl as [Hw Hm].
  rewrite (sum_to_ext _ (fun r => if r mod snd l =? v
             then (fun q => (fun p => sum_to (fun x => mways ls vs (p * 2 ^ fst l + x)) (2 ^ fst l)) (q mod 2 ^ (128 - fst l))) (r / snd l) else 0)).
  2:{ intros r _. apply mways_cons. }
  rewrite (sum_to_residue (fun q => (fun p => sum_to (fun x => mways ls vs (p * 2 ^ fst l + x)) (2 ^ fst l)) (q mod 2 ^ (128 - fst l)))) by (auto; lia).
  rewrite (sum_to_mod (fun p => sum_to (fun x => mways ls vs (p * 2 ^ fst l + x)) (2 ^ fst l))) by auto.
  unfold mtotal. rewrite HP. rewrite !sum_to_blocks. reflexivity.
Qed.

Lemma mdev_cons : forall l ls M v vs, leaf_fits l -> v < snd l ->
  mdev (l :: ls) M (v :: vs) <=
  snd l * (residues (snd l) M v / 2 ^ (128 - fst l) * mdev ls (2 ^ 128) vs
           + mdev ls (residues (snd l) M v mod 2 ^ (128 - fst l) * 2 ^ fst l) vs)
  + 2 ^ fst l * productN (widths_of ls) * dist (snd l * residues (snd l) M v) M.
Proof.
  intros l ls M v vs Hl Hv. unfold mdev. rewrite mtotal_cons by auto.
  pose proof (fits_P l Hl) as HP. pose proof (pow2_pos (128 - fst l)) as HS.
  cbn [widths_of moduli_of map productN fold_right]. fold (widths_of ls) (moduli_of ls).
  fold (productN (widths_of ls)) (productN (moduli_of ls)).
  set (m := snd l) in *. set (W := 2 ^ fst l) in *. set (S := 2 ^ (128 - fst l)) in *. set (P := 2 ^ 128) in *.
  set (Q := residues m M v). pose proof (N.div_mod Q S ltac:(lia)) as HD.
  set (a := Q / S) in *. set (b := Q mod S) in *. clearbody a b.
  set (mm := productN _). set (ww := productN _).
  set (t1 := mtotal ls P vs). set (t2 := mtotal ls (b * W) vs). clearbody mm ww t1 t2.
  clearbody m W S P.
  eapply N.le_trans; [apply (dist_triangle _ (m * (Q * W * ww)))|].
  apply N.add_le_mono.
  - assert (HE : m * (Q * W * ww) = m * (a * (P * ww) + b * W * ww)) by (rewrite HD, HP; lia).
    rewrite HE.
    assert (HE2 : m * mm * (a * t1 + t2) = m * (a * (mm * t1) + mm * t2)) by lia.
    rewrite HE2. clear HE HE2.
    set (x1 := mm * t1). set (x2 := mm * t2). set (y1 := P * ww). set (y2 := b * W * ww).
    clearbody x1 x2 y1 y2.
    rewrite dist_mul. apply N.mul_le_mono_l. eapply N.le_trans; [apply dist_add|]. rewrite dist_mul. lia.
  - replace (m * (Q * W * ww)) with (W * ww * (m * Q)) by lia.
    replace (M * (W * ww)) with (W * ww * M) by lia.
    rewrite dist_mul. lia.
Qed.

Lemma sum_residue_dist : forall m M, 0 < m -> 2 * sum_to (fun v => dist (m * residues m M v) M) m <= m * m.
Proof.
  intros m M Hm. pose proof (tv_mod_bound m M Hm) as HB. unfold tv_2mM in HB.
  unfold sum_to. rewrite (sumN_ext _ _ (fun v => dist (m * count (fun x => x mod m =? v) (all_below M)) M)); auto.
  intros v Hv. apply in_all_below in Hv. rewrite count_mod by auto. reflexivity.
Qed.

Lemma mdist_cons : forall l ls M, leaf_fits l ->
  mdist (l :: ls) M <=
  snd l * sum_to (fun v => residues (snd l) M v / 2 ^ (128 - fst l) * mdist ls (2 ^ 128)
                           + mdist ls (residues (snd l) M v mod 2 ^ (128 - fst l) * 2 ^ fst l)) (snd l)
  + productN (moduli_of ls) * (2 ^ fst l * productN (widths_of ls)) * sum_to (fun v => dist (snd l * residues (snd l) M v) M) (snd l).
Proof.
  intros l ls M Hl. unfold mdist at 1. cbn [moduli_of map]. rewrite sum_mixed_cons. fold (moduli_of ls).
  unfold sum_to. rewrite <- !sumN_mul, <- sumN_plus. apply sumN_le. intros v Hv. apply in_all_below in Hv.
  eapply N.le_trans; [apply sumN_le; intros vs _; apply mdev_cons; auto|].
  rewrite sumN_plus, sumN_mul, sumN_plus, sumN_mul, sumN_const, mixed_length.
  unfold mdist. apply N.eq_le_incl. f_equal. lia.
Qed.

(** The two parts of the bound. *)
Definition sum_moduli (ls : list leaf) : N := sumN (moduli_of ls).
Fixpoint later_moduli (ls : list leaf) : N :=
  match ls with [] => 0 | _ :: ls' => sum_moduli ls' + later_moduli ls' end.

Lemma mdist_bound : forall ls M, Forall leaf_fits ls ->
  2 * 2 ^ 128 * mdist ls M <=
  productN (moduli_of ls) * productN (widths_of ls) * (sum_moduli ls * 2 ^ 128 + later_moduli ls * M).
Proof.
  intros ls. remember (2 ^ 128) as P eqn:EP.
  induction ls as [|l ls IH]; intros M HF.
  - replace (mdist [] M) with 0; [lia|]. unfold mdist, mdev, mtotal, mways. cbn [moduli_of widths_of map mixed_tuples productN fold_right].
    rewrite sumN_cons. change (sumN []) with 0. rewrite N.mul_1_r, N.mul_1_l.
    rewrite (sum_to_ext _ (fun _ => 1)) by reflexivity. unfold sum_to. rewrite sumN_const, all_below_length. unfold dist. lia.
  - fcons HF Hl Hls. specialize (fun M => IH M Hls).
    pose proof (mdist_cons l ls M Hl) as HC. pose proof (fits_P l Hl) as HP.
    pose proof (pow2_pos (128 - fst l)) as HS. destruct Hl as [Hw Hm].
    pose proof (sum_residue_dist (snd l) M ltac:(lia)) as HR.
    cbn [later_moduli]. unfold sum_moduli at 1.
    cbn [widths_of moduli_of map productN fold_right]. fold (widths_of ls) (moduli_of ls).
    fold (productN (widths_of ls)) (productN (moduli_of ls)). rewrite sumN_cons. fold (sum_moduli ls).
    rewrite <- EP in HC, HP. clear EP.
    set (m := snd l) in *. set (W := 2 ^ fst l) in *. set (S := 2 ^ (128 - fst l)) in *.
    set (R := sum_to (fun v => dist (m * residues m M v) M) m) in *. clearbody R.
    set (mm := productN (moduli_of ls)) in *. set (ww := productN (widths_of ls)) in *.
    set (A := sum_moduli ls) in *. set (C := later_moduli ls) in *.
    assert (HI : 2 * P * sum_to (fun v => residues m M v / S * mdist ls P + mdist ls (residues m M v mod S * W)) m
      <= mm * ww * (W * (A * P + (A + C) * M))).
    { unfold sum_to. rewrite <- sumN_mul. eapply N.le_trans.
      { apply sumN_le with (g := fun v => mm * ww * (A * P + (A + C) * W * residues m M v)).
        intros v Hv. pose proof (IH P) as I1. pose proof (IH (residues m M v mod S * W)) as I2.
        set (Q := residues m M v) in *. pose proof (N.div_mod Q S ltac:(lia)) as HD.
        set (a := Q / S) in *. set (b := Q mod S) in *. clearbody a b Q.
        set (c := mm * ww) in *. set (d1 := mdist ls P) in *. set (d2 := mdist ls (b * W)) in *.
        clearbody c d1 d2 A C m W S. clear - I1 I2 HD HP.
        apply N.le_trans with (a * (c * (A * P + C * P)) + c * (A * P + C * (b * W))).
        { replace (2 * P * (a * d1 + d2)) with (a * (2 * P * d1) + 2 * P * d2) by lia.
          apply N.add_le_mono; [apply N.mul_le_mono_l; exact I1|exact I2]. }
        apply N.le_trans with (c * (A * (a * P) + A * P + C * (a * P + b * W))).
        { apply N.eq_le_incl. lia. }
        apply N.mul_le_mono_l.
        assert (H1 : a * P + b * W = W * Q) by (rewrite HD, HP; lia).
        rewrite H1. assert (H2 : a * P <= W * Q) by (rewrite <- H1; lia).
        rewrite <- (N.mul_assoc (A + C) W Q). set (u := W * Q) in *. set (p := a * P) in *. clearbody u p.
        assert (H3 : A * p <= A * u) by (apply N.mul_le_mono_l; auto). lia. }
      rewrite sumN_mul, sumN_plus, sumN_const, sumN_mul, all_below_length, N2Nat.id.
      pose proof (sum_residues m M ltac:(lia)) as HSR. unfold sum_to in HSR. rewrite HSR. clear HSR.
      apply N.mul_le_mono_l.
      assert (H1 : m * (A * P) <= W * (A * P)) by (apply N.mul_le_mono_r; lia).
      set (p := A * P) in *. clearbody p. clear - H1. nia. }
    set (X := sum_to _ m) in *. clearbody X.
    eapply N.le_trans; [apply N.mul_le_mono_l; exact HC|].
    clearbody m W S mm ww A C. clear - HI HR.
    apply N.le_trans with (m * (mm * ww * (W * (A * P + (A + C) * M))) + P * mm * (W * ww) * (m * m)).
    { replace (2 * P * (m * X + mm * (W * ww) * R)) with (m * (2 * P * X) + P * mm * (W * ww) * (2 * R)) by lia.
      apply N.add_le_mono; apply N.mul_le_mono_l; auto. }
    apply N.eq_le_incl. lia.
Qed.

(** An integer in front costs nothing. *)
Lemma mdist_exact : forall l ls, leaf_fits l -> snd l = 2 ^ fst l ->
  mdist (l :: ls) (2 ^ 128) <= snd l * 2 ^ fst l * mdist ls (2 ^ 128).
Proof.
  intros l ls Hl HE. pose proof (mdist_cons l ls (2 ^ 128) Hl) as HC. pose proof (fits_P l Hl) as HP.
  pose proof (pow2_pos (128 - fst l)) as HS. pose proof (pow2_pos (fst l)) as HW. rewrite HE in *.
  assert (HQ : forall v, residues (2 ^ fst l) (2 ^ 128) v = 2 ^ (128 - fst l)).
  { intros v. unfold residues. rewrite HP, N.div_mul, N.mod_mul by lia. destruct (v <? 0) eqn:E; lia. }
  rewrite (sum_to_ext _ (fun _ => mdist ls (2 ^ 128))) in HC.
  2:{ intros v _. rewrite HQ, N.div_same, N.mod_same by lia. rewrite N.mul_0_l.
      assert (H0 : mdist ls 0 = 0).
      { unfold mdist. rewrite (sumN_ext _ _ (fun _ => 0)); [rewrite sumN_const; lia|]. intros vs _.
        unfold mdev, mtotal. rewrite sum_to_0. unfold dist. lia. }
      rewrite H0. lia. }
  rewrite (sum_to_ext (fun v => dist _ _) (fun _ => 0)) in HC.
  2:{ intros v _. rewrite HQ. rewrite N.mul_comm, <- HP. unfold dist. lia. }
  unfold sum_to in HC. rewrite !sumN_const, all_below_length, N2Nat.id in HC.
  eapply N.le_trans; [exact HC|]. lia.
Qed.

(** The bound for a uniform first block. *)
Fixpoint mixed_cost (ls : list leaf) : N :=
  match ls with
  | [] => 0
  | l :: ls' => if snd l =? 2 ^ fst l then mixed_cost ls' else weighted_from 1 (moduli_of ls)
  end.
Lemma weighted_shift : forall ms i, weighted_from (i + 1) ms = weighted_from i ms + sumN ms.
Proof.
  induction ms as [|m ms IH]; intros i; [reflexivity|]. cbn [weighted_from]. rewrite sumN_cons, IH. lia.
Qed.
Lemma weighted_parts : forall ls, weighted_from 1 (moduli_of ls) = sum_moduli ls + later_moduli ls.
Proof.
  induction ls as [|l ls IH]; [reflexivity|]. cbn [moduli_of map weighted_from later_moduli]. fold (moduli_of ls).
  rewrite weighted_shift, IH. unfold sum_moduli. cbn [moduli_of map]. rewrite sumN_cons. fold (moduli_of ls). lia.
Qed.
Lemma mixed_distance : forall ls, Forall leaf_fits ls ->
  2 * mdist ls (2 ^ 128) <= productN (moduli_of ls) * productN (widths_of ls) * mixed_cost ls.
Proof.
  induction ls as [|l ls IH]; intros HF.
  - pose proof (mdist_bound [] (2 ^ 128) HF) as HB. cbn [sum_moduli later_moduli moduli_of map sumN fold_right mixed_cost] in *.
    change (sum_moduli []) with 0 in HB. assert (mdist [] (2 ^ 128) = 0) by lia. lia.
  - pose proof HF as HF'. fcons HF' Hl Hls. cbn [mixed_cost]. destruct (N.eqb_spec (snd l) (2 ^ fst l)) as [E|E].
    + pose proof (mdist_exact l ls Hl E) as HX. specialize (IH Hls).
      cbn [widths_of moduli_of map productN fold_right]. fold (widths_of ls) (moduli_of ls).
      fold (productN (widths_of ls)) (productN (moduli_of ls)).
      set (c := snd l * 2 ^ fst l) in *. 
      replace (snd l * productN (moduli_of ls) * (2 ^ fst l * productN (widths_of ls)) * mixed_cost ls)
        with (c * (productN (moduli_of ls) * productN (widths_of ls) * mixed_cost ls)) by (unfold c; lia).
      eapply N.le_trans; [|apply N.mul_le_mono_l; exact IH].
      apply N.le_trans with (2 * (c * mdist ls (2 ^ 128))); [apply N.mul_le_mono_l; exact HX|]. lia.
    + pose proof (mdist_bound (l :: ls) (2 ^ 128) HF) as HB. rewrite weighted_parts.
      assert (HP : 0 < 2 ^ 128) by reflexivity. apply (N.mul_le_mono_pos_l _ _ (2 ^ 128) HP).
      clear IH. generalize dependent (2 ^ 128). intros P HB HP.
      replace (P * (2 * mdist (l :: ls) P)) with (2 * P * mdist (l :: ls) P) by lia.
      eapply N.le_trans; [exact HB|]. apply N.eq_le_incl. lia.
Qed.
