(** Joint distribution of several IntModN samples. *)
From Coq Require Import List NArith ZArith Lia Bool ZifyBool ZifyNat ZifyN.
From Verif Require Import Base ListUtil ValueTypesModel ValueTypesSpec ValueTypesProofs
  ConvProofs SampleSpec SampleProofs.
Import ListNotations.
Ltac Zify.zify_post_hook ::= Z.div_mod_to_equations.
Open Scope N_scope.

(** ** Sums *)

Lemma sumN_cons : forall a l, sumN (a :: l) = a + sumN l.
Proof. reflexivity. Qed.
Lemma sumN_ext : forall A (f g : A -> N) l, (forall x, In x l -> f x = g x) ->
  sumN (map f l) = sumN (map g l).
Proof. intros. f_equal. apply map_ext_in. auto. Qed.
Lemma sumN_le : forall A (f g : A -> N) l, (forall x, In x l -> f x <= g x) ->
  sumN (map f l) <= sumN (map g l).
Proof.
  intros A f g l H. induction l as [|a l IH]; cbn [map]; [reflexivity|]. rewrite !sumN_cons.
  apply N.add_le_mono; [apply H; left; auto|apply IH; intros; apply H; right; auto].
Qed.
Lemma sumN_plus : forall A (f g : A -> N) l,
  sumN (map (fun x => f x + g x) l) = sumN (map f l) + sumN (map g l).
Proof.
  intros A f g l. induction l as [|a l IH]; cbn [map]; [reflexivity|]. rewrite !sumN_cons, IH. lia.
Qed.
Lemma sumN_mul : forall A (f : A -> N) c l,
  sumN (map (fun x => c * f x) l) = c * sumN (map f l).
Proof.
  intros A f c l. induction l as [|a l IH]; cbn [map]; [cbn; lia|]. rewrite !sumN_cons, IH. lia.
Qed.
Lemma sumN_const : forall A c (l : list A), sumN (map (fun _ => c) l) = N.of_nat (length l) * c.
Proof.
  intros A c l. induction l as [|a l IH]; cbn [map length]; [reflexivity|]. rewrite sumN_cons, IH. lia.
Qed.
Lemma sumN_flat_map : forall A B (g : A -> list B) (f : B -> N) l,
  sumN (map f (flat_map g l)) = sumN (map (fun x => sumN (map f (g x))) l).
Proof.
  intros A B g f l. induction l as [|a l IH]; cbn [map flat_map]; [reflexivity|].
  rewrite map_app, sumN_app, sumN_cons, IH. reflexivity.
Qed.

(** Sum of f(0), ..., f(n-1). *)
Definition sum_to (f : N -> N) (n : N) : N := sumN (map f (all_below n)).
Lemma sum_to_succ : forall f n, sum_to f (N.succ n) = sum_to f n + f n.
Proof.
  intros. unfold sum_to. rewrite all_below_succ, map_app, sumN_app. cbn [map]. rewrite sumN_cons.
  cbn. lia.
Qed.
Lemma sum_to_0 : forall f, sum_to f 0 = 0.
Proof. reflexivity. Qed.
Lemma sum_to_add : forall f a b, sum_to f (a + b) = sum_to f a + sum_to (fun x => f (a + x)) b.
Proof.
  intros f a b. induction b as [|b IH] using N.peano_ind.
  - rewrite N.add_0_r, sum_to_0. lia.
  - rewrite N.add_succ_r, !sum_to_succ, IH. lia.
Qed.
Lemma sum_to_ext : forall f g n, (forall x, x < n -> f x = g x) -> sum_to f n = sum_to g n.
Proof. intros. apply sumN_ext. intros x Hx. apply in_all_below in Hx. auto. Qed.
(** Blocks of W terms. *)
Lemma sum_to_blocks : forall f W n,
  sum_to f (n * W) = sum_to (fun q => sum_to (fun x => f (q * W + x)) W) n.
Proof.
  intros f W n. induction n as [|n IH] using N.peano_ind; [reflexivity|].
  rewrite N.mul_succ_l, sum_to_add, sum_to_succ, IH. reflexivity.
Qed.
(** A function of q mod S. *)
Lemma sum_to_mod : forall f S n, 0 < S ->
  sum_to (fun q => f (q mod S)) n = n / S * sum_to f S + sum_to f (n mod S).
Proof.
  intros f S n HS. pose proof (N.div_mod n S ltac:(lia)) as HD.
  pose proof (N.mod_lt n S ltac:(lia)) as HR.
  set (a := n / S) in *. set (r := n mod S) in *. clearbody a r. subst n.
  rewrite N.mul_comm, sum_to_add. f_equal.
  - clear HR. induction a as [|a IH] using N.peano_ind; [reflexivity|].
    rewrite N.mul_succ_l, sum_to_add, IH.
    rewrite (sum_to_ext (fun x => f ((a * S + x) mod S)) f); [lia|].
    intros x Hx. rewrite N.add_comm, N.mod_add, N.mod_small by lia. reflexivity.
  - apply sum_to_ext. intros x Hx.
    rewrite N.add_comm, N.mod_add, N.mod_small by lia. reflexivity.
Qed.
(** The terms whose index is v modulo m. *)
Definition residues (m M v : N) : N := M / m + (if v <? M mod m then 1 else 0).
Lemma sum_to_residue : forall f m M v, 0 < m -> v < m ->
  sum_to (fun r => if r mod m =? v then f (r / m) else 0) M = sum_to f (residues m M v).
Proof.
  intros f m M v Hm Hv. unfold residues. induction M as [|M IH] using N.peano_ind.
  - rewrite N.div_0_l, N.mod_0_l by lia. destruct (v <? 0) eqn:E; [lia|reflexivity].
  - rewrite sum_to_succ, IH.
    pose proof (N.div_mod M m ltac:(lia)) as HD. pose proof (N.mod_lt M m ltac:(lia)) as HR.
    set (q := M / m) in *. set (r := M mod m) in *. clearbody q r.
    destruct (N.eq_dec (r + 1) m) as [He|He].
    + assert (Hq : N.succ M / m = q + 1) by (symmetry; apply N.div_unique with 0; nia).
      assert (Hr : N.succ M mod m = 0) by (symmetry; apply N.mod_unique with (q + 1); nia).
      rewrite Hq, Hr.
      destruct (v <? r) eqn:E1, (r =? v) eqn:E2, (v <? 0) eqn:E3; try lia.
      * rewrite !N.add_0_r. reflexivity.
      * rewrite !N.add_0_r, N.add_1_r, sum_to_succ. reflexivity.
    + assert (Hq : N.succ M / m = q) by (symmetry; apply N.div_unique with (r + 1); nia).
      assert (Hr : N.succ M mod m = r + 1) by (symmetry; apply N.mod_unique with q; nia).
      rewrite Hq, Hr.
      destruct (v <? r) eqn:E1, (r =? v) eqn:E2, (v <? r + 1) eqn:E3; try lia.
      all: rewrite ?N.add_0_r, ?N.add_1_r, ?sum_to_succ; reflexivity.
Qed.
Lemma sum_residues : forall m M, 0 < m -> sum_to (residues m M) m = M.
Proof.
  intros m M Hm. unfold sum_to, residues.
  rewrite (sumN_plus _ (fun _ => M / m) (fun v => if v <? M mod m then 1 else 0)), sumN_const, all_below_length.
  pose proof (N.mod_lt M m ltac:(lia)).
  rewrite sumN_two_valued by lia. pose proof (N.div_mod M m ltac:(lia)). lia.
Qed.

Lemma dist_triangle : forall a b c, dist a c <= dist a b + dist b c.
Proof. unfold dist. intros. lia. Qed.
Lemma dist_mul : forall c a b, dist (c * a) (c * b) = c * dist a b.
Proof. intros. unfold dist. rewrite N.mul_add_distr_l, !N.mul_sub_distr_l. reflexivity. Qed.
Lemma dist_add : forall a b c d, dist (a + b) (c + d) <= dist a c + dist b d.
Proof. unfold dist. intros. lia. Qed.

(** ** Tuples *)

Lemma tuples_length : forall k n, N.of_nat (length (tuples k n)) = n ^ N.of_nat k.
Proof.
  intros k n. induction k as [|k IH]; [reflexivity|].
  rewrite Nat2N.inj_succ, N.pow_succ_r'. cbn [tuples].
  rewrite <- (N.mul_1_r (N.of_nat _)), <- (sumN_const _ 1), sumN_flat_map.
  rewrite (sumN_ext _ _ (fun _ => n ^ N.of_nat k)).
  - rewrite sumN_const, all_below_length. lia.
  - intros x _. rewrite map_map, sumN_const, IH. lia.
Qed.
Lemma sum_tuples_succ : forall k n f,
  sumN (map f (tuples (S k) n)) = sum_to (fun v => sumN (map (fun vs => f (v :: vs)) (tuples k n))) n.
Proof.
  intros. cbn [tuples]. rewrite sumN_flat_map. apply sumN_ext. intros x _. rewrite map_map. reflexivity.
Qed.
Lemma in_tuples : forall k n xs, In xs (tuples k n) <-> length xs = k /\ Forall (fun x => x < n) xs.
Proof.
  induction k as [|k IH]; intros n xs; cbn [tuples].
  - split; [intros [<-|[]]; auto|]. intros [H _]. destruct xs; [left; auto|discriminate].
  - rewrite in_flat_map. split.
    + intros (x & Hx & H). apply in_map_iff in H. destruct H as (ys & <- & Hy).
      apply IH in Hy. destruct Hy as [H1 H2]. apply in_all_below in Hx. cbn [length]. split; [lia|].
      constructor; auto.
    + intros [HL HF]. destruct xs as [|x xs]; [discriminate|]. cbn [length] in HL. inv HF.
      exists x. split; [apply in_all_below; auto|]. apply in_map. apply IH. split; auto.
Qed.

Lemma count_sum : forall A (p : A -> bool) l, count p l = sumN (map (fun x => if p x then 1 else 0) l).
Proof.
  intros A p l. unfold count. induction l as [|a l IH]; cbn [filter map]; [reflexivity|].
  rewrite sumN_cons. destruct (p a); cbn [length]; lia.
Qed.
Lemma count_list_prod : forall A B (p : A * B -> bool) la lb,
  count p (list_prod la lb) = sumN (map (fun a => count (fun b => p (a, b)) lb) la).
Proof.
  intros A B p la lb. induction la as [|a la IH]; cbn [list_prod map]; [reflexivity|].
  rewrite count_app, sumN_cons, IH. f_equal. rewrite !count_sum, map_map. reflexivity.
Qed.

(** ** The sampling loop *)
Section Loop.
Variables (W S m : N).
Hypothesis HW : 0 < W.
Hypothesis HS : 0 < S.
Hypothesis Hm : 0 < m.
Hypothesis HmW : m <= W.
Let P := S * W.

Fixpoint samples (r : N) (xs : list N) : list N :=
  r mod m :: match xs with
             | [] => []
             | x :: xs' => samples ((r / m mod S) * W + x) xs'
             end.

(** Number of continuations of r that give vs. *)
Definition ways (k : nat) (vs : list N) (r : N) : N :=
  count (fun xs => same_list (samples r xs) vs) (tuples k W).
Definition total (k : nat) (M : N) (vs : list N) : N := sum_to (ways k vs) M.
Definition deviation (k : nat) (M : N) (vs : list N) : N :=
  dist (m ^ N.of_nat (Datatypes.S k) * total k M vs) (M * W ^ N.of_nat k).
Definition distance (k : nat) (M : N) : N := sumN (map (deviation k M) (tuples (Datatypes.S k) m)).

Lemma tv_joint_distance : forall k M, tv_joint samples M W m k = distance k M.
Proof using HW HS Hm HmW.
  intros k M. unfold tv_joint, distance, deviation, total, sum_to, ways. apply sumN_ext.
  intros vs _. rewrite count_list_prod. reflexivity.
Qed.

Lemma ways_succ : forall k v vs r,
  ways (Datatypes.S k) (v :: vs) r
  = if r mod m =? v then sum_to (fun x => ways k vs (r / m mod S * W + x)) W else 0.
Proof using HW HS Hm HmW.
  intros k v vs r. unfold ways at 1. rewrite count_sum, sum_tuples_succ.
  destruct (r mod m =? v) eqn:E.
  - apply sum_to_ext. intros x _. unfold ways. rewrite count_sum. apply sumN_ext. intros xs _.
    cbn [samples same_list]. rewrite E. reflexivity.
  - unfold sum_to.
    rewrite (sumN_ext _ _ (fun _ => 0)).
    + rewrite sumN_const. lia.
    + intros x _. rewrite (sumN_ext _ _ (fun _ => 0)).
      * rewrite sumN_const. lia.
      * intros xs _. cbn [samples same_list]. rewrite E. reflexivity.
Qed.

Lemma total_succ : forall k M v vs, v < m ->
  total (Datatypes.S k) M (v :: vs)
  = residues m M v / S * total k P vs + total k (residues m M v mod S * W) vs.
Proof using HW HS Hm HmW.
  intros k M v vs Hv. unfold total at 1.
  rewrite (sum_to_ext _ (fun r => if r mod m =? v
             then (fun q => (fun p => sum_to (fun x => ways k vs (p * W + x)) W) (q mod S)) (r / m) else 0)).
  2:{ intros r _. apply ways_succ. }
  rewrite (sum_to_residue (fun q => (fun p => sum_to (fun x => ways k vs (p * W + x)) W) (q mod S))) by auto.
  rewrite (sum_to_mod (fun p => sum_to (fun x => ways k vs (p * W + x)) W)) by auto.
  unfold total, P. rewrite !sum_to_blocks. reflexivity.
Qed.

Lemma deviation_succ : forall k M v vs, v < m ->
  deviation (Datatypes.S k) M (v :: vs) <=
  m * (residues m M v / S * deviation k P vs + deviation k (residues m M v mod S * W) vs)
  + W ^ N.of_nat (Datatypes.S k) * dist (m * residues m M v) M.
Proof using HW HS Hm HmW.
  intros k M v vs Hv. unfold deviation. rewrite total_succ by auto.
  set (Q := residues m M v). pose proof (N.div_mod Q S ltac:(lia)) as HD.
  rewrite (Nat2N.inj_succ (Datatypes.S k)), (Nat2N.inj_succ k), !N.pow_succ_r'.
  set (a := Q / S) in *. set (b := Q mod S) in *. clearbody a b.
  set (mm := m ^ N.of_nat k). set (ww := W ^ N.of_nat k).
  set (t1 := total k P vs). set (t2 := total k (b * W) vs). clearbody mm ww t1 t2.
  eapply N.le_trans; [apply (dist_triangle _ (m * (Q * W * ww)))|].
  apply N.add_le_mono.
  - assert (HE : m * (Q * W * ww) = m * (a * (P * ww) + b * W * ww)) by (rewrite HD; unfold P; lia).
    rewrite HE.
    assert (HE2 : m * (m * mm) * (a * t1 + t2) = m * (a * (m * mm * t1) + m * mm * t2)) by lia.
    rewrite HE2. clear HE HE2.
    set (x1 := m * mm * t1). set (x2 := m * mm * t2). set (y1 := P * ww). set (y2 := b * W * ww).
    clearbody x1 x2 y1 y2.
    rewrite dist_mul. apply N.mul_le_mono_l. eapply N.le_trans; [apply dist_add|]. rewrite dist_mul. lia.
  - replace (m * (Q * W * ww)) with (W * ww * (m * Q)) by lia.
    replace (M * (W * ww)) with (W * ww * M) by lia.
    rewrite dist_mul. lia.
Qed.

(** The first sample. *)
Lemma sum_residue_dist : forall M, 2 * sum_to (fun v => dist (m * residues m M v) M) m <= m * m.
Proof using HW HS Hm HmW.
  intros M. pose proof (tv_mod_bound m M Hm) as HB. unfold tv_2mM in HB.
  unfold sum_to. rewrite (sumN_ext _ _ (fun v => dist (m * count (fun x => x mod m =? v) (all_below M)) M)); auto.
  intros v Hv. apply in_all_below in Hv. rewrite count_mod by auto. reflexivity.
Qed.

Lemma distance_succ : forall k M,
  distance (Datatypes.S k) M <=
  m * sum_to (fun v => residues m M v / S * distance k P + distance k (residues m M v mod S * W)) m
  + m ^ N.of_nat (Datatypes.S k) * W ^ N.of_nat (Datatypes.S k) * sum_to (fun v => dist (m * residues m M v) M) m.
Proof using HW HS Hm HmW.
  intros k M. unfold distance at 1. rewrite sum_tuples_succ.
  unfold sum_to. rewrite <- !sumN_mul, <- sumN_plus. apply sumN_le. intros v Hv. apply in_all_below in Hv.
  eapply N.le_trans; [apply sumN_le; intros vs _; apply deviation_succ; auto|].
  rewrite sumN_plus, sumN_mul, sumN_plus, sumN_mul, sumN_const, tuples_length.
  unfold distance. apply N.eq_le_incl. f_equal. lia.
Qed.

Lemma distance_bound : forall k M,
  4 * P * distance k M <=
  m ^ N.of_nat (k + 2) * W ^ N.of_nat k * (2 * (N.of_nat k + 1) * P + N.of_nat k * (N.of_nat k + 1) * M).
Proof using HW HS Hm HmW.
  induction k as [|k IH]; intros M.
  - change (N.of_nat (0 + 2)) with 2. change (N.of_nat 0) with 0. rewrite N.pow_0_r.
    assert (HD : distance 0 M = tv_2mM (fun x => x mod m) M m).
    { rewrite <- tv_joint_distance. unfold tv_joint, tv_2mM. rewrite sum_tuples_succ.
      unfold sum_to. apply sumN_ext. intros v _. cbn [tuples map]. rewrite sumN_cons.
      change (sumN []) with 0. rewrite N.add_0_r. change (N.of_nat 1) with 1. change (N.of_nat 0) with 0.
      rewrite N.pow_0_r, N.pow_1_r, N.mul_1_r. f_equal. f_equal.
      rewrite count_list_prod, count_sum. apply sumN_ext. intros r _. rewrite count_sum. cbn [map].
      rewrite sumN_cons. cbn [samples snd fst same_list]. rewrite andb_true_r. change (sumN []) with 0. lia. }
    rewrite HD. pose proof (tv_mod_bound m M Hm) as HB.
    replace (m ^ 2) with (m * m) by (rewrite N.pow_2_r; auto).
    set (t := tv_2mM _ M m) in *. clearbody t. clearbody P. nia.
  - eapply N.le_trans; [apply N.mul_le_mono_l; apply distance_succ|].
    pose proof (sum_residue_dist M) as HR.
    set (R := sum_to (fun v => dist (m * residues m M v) M) m) in *. clearbody R.
    set (kk := N.of_nat k) in *.
    assert (HI : 4 * P * sum_to (fun v => residues m M v / S * distance k P + distance k (residues m M v mod S * W)) m
      <= m ^ N.of_nat (k + 2) * W ^ kk * W * (2 * (kk + 1) * P + (2 * (kk + 1) + kk * (kk + 1)) * M)).
    { unfold sum_to. rewrite <- sumN_mul.
      eapply N.le_trans.
      { apply sumN_le with (g := fun v => m ^ N.of_nat (k + 2) * W ^ kk *
          (2 * (kk + 1) * P + (2 * (kk + 1) + kk * (kk + 1)) * W * residues m M v)).
        intros v Hv. apply in_all_below in Hv.
        pose proof (IH P) as I1. pose proof (IH (residues m M v mod S * W)) as I2.
        set (Q := residues m M v) in *. pose proof (N.div_mod Q S ltac:(lia)) as HD.
        set (a := Q / S) in *. set (b := Q mod S) in *. clearbody a b Q.
        set (c := m ^ N.of_nat (k + 2) * W ^ kk) in *. clearbody c kk.
        set (d1 := distance k P) in *. set (d2 := distance k (b * W)) in *. clearbody d1 d2.
        apply N.le_trans with (a * (c * (2 * (kk + 1) * P + kk * (kk + 1) * P))
                               + c * (2 * (kk + 1) * P + kk * (kk + 1) * (b * W))).
        { replace (4 * P * (a * d1 + d2)) with (a * (4 * P * d1) + 4 * P * d2) by lia.
          apply N.add_le_mono; [apply N.mul_le_mono_l; exact I1|exact I2]. }
        apply N.le_trans with (c * (2 * (kk + 1) * (a * P) + 2 * (kk + 1) * P + kk * (kk + 1) * (a * P + b * W))).
        { apply N.eq_le_incl. lia. }
        apply N.mul_le_mono_l.
        assert (H1 : a * P + b * W = W * Q) by (rewrite HD; unfold P; lia).
        rewrite H1. assert (H2 : a * P <= W * Q) by (rewrite <- H1; lia).
        set (u := W * Q) in *. replace ((2 * (kk + 1) + kk * (kk + 1)) * W * Q) with ((2 * (kk + 1) + kk * (kk + 1)) * u) by (unfold u; lia).
        set (p := a * P) in *. clearbody u p.
        replace ((2 * (kk + 1) + kk * (kk + 1)) * u) with (2 * (kk + 1) * u + kk * (kk + 1) * u) by lia.
        assert (H3 : 2 * (kk + 1) * p <= 2 * (kk + 1) * u) by (apply N.mul_le_mono_l; auto). lia. }
      rewrite sumN_mul, sumN_plus, sumN_const, sumN_mul, all_below_length, N2Nat.id.
      pose proof (sum_residues m M Hm) as HSR. unfold sum_to in HSR. rewrite HSR. clear HSR.
      set (c := m ^ N.of_nat (k + 2) * W ^ kk) in *. clearbody c kk.
      rewrite <- (N.mul_assoc c W). apply N.mul_le_mono_l.
      assert (H1 : m * (2 * (kk + 1) * P) <= W * (2 * (kk + 1) * P)) by (apply N.mul_le_mono_r; auto).
      set (p := 2 * (kk + 1) * P) in *. clearbody p. lia. }
    set (X := sum_to _ m) in *. clearbody X.
    replace (N.of_nat (Datatypes.S k)) with (kk + 1) in * by (unfold kk; lia).
    replace (N.of_nat (Datatypes.S k + 2)) with (N.of_nat (k + 2) + 1) by lia.
    replace (N.of_nat (k + 2)) with (kk + 1 + 1) in * by (unfold kk; lia).
    rewrite !N.pow_add_r, !N.pow_1_r in *.
    set (mm := m ^ kk) in *. set (ww := W ^ kk) in *. clearbody mm ww kk P. clear IH.
    apply N.le_trans with (m * (mm * m * m * ww * W * (2 * (kk + 1) * P + (2 * (kk + 1) + kk * (kk + 1)) * M))
                           + 2 * P * (mm * m) * (ww * W) * (m * m)).
    { replace (4 * P * (m * X + mm * m * (ww * W) * R)) with (m * (4 * P * X) + 2 * P * (mm * m) * (ww * W) * (2 * R)) by lia.
      apply N.add_le_mono; apply N.mul_le_mono_l; auto. }
    apply N.eq_le_incl. lia.
Qed.

(** The bound for a uniform starting value. *)
Lemma tv_joint_bound : forall k,
  4 * tv_joint samples P W m k <=
  N.of_nat (Datatypes.S k) * (N.of_nat (Datatypes.S k) + 1) * m ^ N.of_nat (k + 2) * W ^ N.of_nat k.
Proof using HW HS Hm HmW.
  intros k. rewrite tv_joint_distance. pose proof (distance_bound k P) as HB.
  assert (HP : 0 < P) by (unfold P; nia).
  apply (N.mul_le_mono_pos_l _ _ P HP).
  replace (P * (4 * distance k P)) with (4 * P * distance k P) by lia.
  eapply N.le_trans; [exact HB|]. apply N.eq_le_incl.
  replace (N.of_nat (Datatypes.S k)) with (N.of_nat k + 1) by lia. lia.
Qed.
End Loop.

(** ** The code *)

Lemma lor_add : forall w a x, x < 2 ^ w -> N.lor (a * 2 ^ w) x = a * 2 ^ w + x.
Proof.
  intros w a x Hx. rewrite <- (N.lxor_lor (a * 2 ^ w) x), <- N.add_nocarry_lxor; auto.
  all: apply N.bits_inj; intros i; rewrite N.land_spec, N.bits_0;
    destruct (N.lt_ge_cases i w) as [Hi|Hi];
    [rewrite N.mul_pow2_bits_low by auto; reflexivity|].
  all: destruct (N.eq_dec x 0) as [->|Hx0]; [rewrite N.bits_0, andb_false_r; reflexivity|];
    rewrite (N.bits_above_log2 x i), andb_false_r; auto;
    apply N.lt_le_trans with w; auto; apply N.log2_lt_pow2; lia.
Qed.

Lemma next_word : forall w q x, w <= 128 -> x < 2 ^ w ->
  N.lor (w128 (N.shiftl q w)) x = q mod 2 ^ (128 - w) * 2 ^ w + x.
Proof.
  intros w q x Hw Hx. rewrite N.shiftl_mul_pow2. unfold w128.
  replace P128 with (2 ^ (128 - w) * 2 ^ w) by (rewrite <- N.pow_add_r; change P128 with (2 ^ 128); f_equal; lia).
  rewrite N.mul_mod_distr_r by (apply N.pow_nonzero; lia). apply lor_add. auto.
Qed.

Lemma first_word : forall r rest, r < 2 ^ 128 ->
  (sub <- substr (le_encode 16 r ++ rest) 0 16 ;; int_from_bytes 128 sub) = Ok r.
Proof.
  intros r rest Hr. rewrite substr_ok by (rewrite app_length; lia). cbn [bind skipn].
  rewrite firstn_app_exact by apply le_encode_length.
  destruct (int_from_bytes_ok 128 (le_encode 16 r)) as (y & Hy & _ & ->); auto.
  rewrite Hy, le_decode_encode. rewrite N.mod_small; auto.
Qed.

Section Code.
Variables w m : N.
Hypothesis Hok : cty_ok (TMod w m) = true.
Let W := 2 ^ w.
Let S128 := 2 ^ (128 - w).

Lemma reduced : forall r, (r mod m) mod 2 ^ w mod m = r mod m.
Proof using Hok.
  intros r. pose proof (cty_ok_mod _ _ Hok) as (Hw & Hm & Hm2).
  pose proof (N.mod_lt r m ltac:(lia)). rewrite (N.mod_small (r mod m) (2 ^ w)) by lia.
  apply N.mod_small. auto.
Qed.

Lemma unsafe_loop_samples : forall xs r, w < 128 -> Forall (fun x => x < W) xs ->
  unsafe_sample_loop w m r xs = samples W S128 m r xs.
Proof using Hok.
  induction xs as [|x xs IH]; intros r Hw Hx; cbn [unsafe_sample_loop samples]; rewrite reduced; auto.
  inv Hx. f_equal. assert (w <? 128 = true) as -> by lia.
  rewrite next_word by (auto; lia). apply IH; auto.
Qed.

Lemma pow_nbytes : 256 ^ N.of_nat (nbytes w) = W.
Proof using Hok.
  pose proof (cty_ok_mod _ _ Hok) as (Hw & _ & _).
  change 256 with (2 ^ 8). rewrite <- N.pow_mul_r, nbytes_width by auto. reflexivity.
Qed.

Lemma word_from_bytes : forall x, x < W -> int_from_bytes w (le_encode (nbytes w) x) = Ok x.
Proof using Hok.
  intros x Hx. pose proof (cty_ok_mod _ _ Hok) as (Hw & _ & _).
  destruct (int_from_bytes_ok w (le_encode (nbytes w) x)) as (y & Hy & _ & ->); auto.
  { apply le_encode_length. }
  rewrite Hy, le_decode_encode, pow_nbytes, N.mod_small; auto.
Qed.

(** [k] random words in bytes. *)
Definition words (xs : list N) : bytes := flat_map (le_encode (nbytes w)) xs.

Lemma read_words : forall xs pre rest s off, Forall (fun x => x < W) xs ->
  length pre = (off + s * nbytes w)%nat ->
  mapM (fun i => sub <- substr (pre ++ words xs ++ rest) (off + i * nbytes w) (nbytes w) ;;
                 int_from_bytes w sub) (seq s (length xs)) = Ok xs.
Proof using Hok.
  induction xs as [|x xs IH]; intros pre rest s off Hx HL; cbn [length seq mapM]; auto.
  inv Hx. rewrite substr_ok by (rewrite app_length; lia). cbn [bind].
  rewrite skipn_app_exact by auto.
  cbn [words flat_map]. fold (words xs). rewrite <- app_assoc, firstn_app_exact by apply le_encode_length.
  rewrite word_from_bytes by auto. cbn [bind].
  specialize (IH (pre ++ le_encode (nbytes w) x) rest (S s) off H2).
  rewrite <- !app_assoc in IH. rewrite IH; [reflexivity|].
  rewrite app_length, le_encode_length. lia.
Qed.

Lemma unsafe_samples : forall r xs rest, w < 128 -> r < 2 ^ 128 -> Forall (fun x => x < W) xs ->
  unsafe_sample_from_bytes w m (le_encode 16 r ++ words xs ++ rest) (S (length xs))
  = Ok (samples W S128 m r xs).
Proof using Hok.
  intros r xs rest Hw Hr Hx. unfold unsafe_sample_from_bytes.
  pose proof (first_word r (words xs ++ rest) Hr) as HF.
  destruct (substr (le_encode 16 r ++ words xs ++ rest) 0 16); try discriminate.
  cbn [bind] in *. rewrite HF. cbn [bind]. replace (S (length xs) - 1)%nat with (length xs) by lia.
  rewrite (read_words xs (le_encode 16 r) rest 0 16) by (auto; rewrite le_encode_length; lia).
  cbn [bind]. rewrite unsafe_loop_samples; auto.
Qed.

Lemma safe_samples : forall F sec r xs rest, w < 128 -> r < 2 ^ 128 -> Forall (fun x => x < W) xs ->
  f_gt_level F sec (N.of_nat (S (length xs))) m = false ->
  sample_from_bytes F w m (le_encode 16 r ++ words xs ++ rest) sec (S (length xs))
  = Ok (samples W S128 m r xs).
Proof using Hok.
  intros F sec r xs rest Hw Hr Hx HF.
  set (b := le_encode 16 r ++ words xs ++ rest).
  assert (HL : (16 + nbytes w * length xs <= length b)%nat).
  { unfold b. rewrite !app_length, le_encode_length.
    assert (length (words xs) = (nbytes w * length xs)%nat).
    { clear. induction xs as [|x xs IH]; cbn [words flat_map length]; [lia|].
      fold (words xs). rewrite app_length, le_encode_length, IH. lia. }
    lia. }
  pose proof (sample_from_bytes_spec F w m b sec (S (length xs)) Hok) as HS.
  pose proof (unsafe_samples r xs rest Hw Hr Hx) as HU. fold b in HU.
  unfold sample_from_bytes in *. cbn [Nat.eqb] in *.
  destruct (get_num_bytes_required F (Z.of_nat (S (length xs))) (Z.of_N w) m sec); cbn [bind] in *.
  - destruct (Z.of_nat (length b) <? a)%Z; [|exact HU].
    destruct HS as [_ [HS|[HS|HS]]]; [discriminate|lia|congruence].
  - destruct HS as [_ [HS|[HS|HS]]]; [discriminate|lia|congruence].
  - destruct HS.
  - destruct HS.
Qed.

Lemma first_sample : forall F sec r rest, r < 2 ^ 128 ->
  f_gt_level F sec 1 m = false ->
  sample_from_bytes F w m (le_encode 16 r ++ rest) sec 1 = Ok [r mod m].
Proof using Hok.
  intros F sec r rest Hr HF. set (b := le_encode 16 r ++ rest).
  assert (HL : (16 <= length b)%nat) by (unfold b; rewrite app_length, le_encode_length; lia).
  pose proof (sample_from_bytes_spec F w m b sec 1 Hok) as HS.
  assert (HU : unsafe_sample_from_bytes w m b 1 = Ok [r mod m]).
  { unfold unsafe_sample_from_bytes. pose proof (first_word r rest Hr) as H1. fold b in H1.
    destruct (substr b 0 16); try discriminate. cbn [bind] in *. rewrite H1.
    cbn [bind Nat.sub seq mapM unsafe_sample_loop]. rewrite reduced. reflexivity. }
  unfold sample_from_bytes in *. cbn [Nat.eqb] in *.
  destruct (get_num_bytes_required F (Z.of_nat 1) (Z.of_N w) m sec); cbn [bind] in *.
  - destruct (Z.of_nat (length b) <? a)%Z; [|exact HU].
    destruct HS as [_ [HS|[HS|HS]]]; [discriminate|lia|change (N.of_nat 1) with 1 in HS; congruence].
  - destruct HS as [_ [HS|[HS|HS]]]; [discriminate|lia|change (N.of_nat 1) with 1 in HS; congruence].
  - destruct HS.
  - destruct HS.
Qed.

Lemma tuple_samples : forall xs n r rest c, Forall (fun x => x < W) xs ->
  (n = c + S (length xs))%nat ->
  exists st, sample_list sample_and_update n false (repeat (TMod w m) (S (length xs))) c r (words xs ++ rest)
  = Ok (map VNum (samples W S128 m r xs), st).
Proof using Hok.
  pose proof (cty_ok_mod _ _ Hok) as (Hw & Hm & Hm2).
  assert (Hw128 : w <= 128) by (widths Hw; lia).
  induction xs as [|x xs IH]; intros n r rest c Hx Hn.
  - cbn [length repeat sample_list orb]. assert (Nat.ltb (S c) n = false) as ->.
    { apply Nat.ltb_ge. cbn [length] in Hn. lia. }
    cbn [sample_and_update bind samples map]. rewrite reduced. eexists. reflexivity.
  - cbn [length] in *. set (k := S (length xs)) in *. cbn [repeat sample_list orb].
    assert (Nat.ltb (S c) n = true) as -> by (apply Nat.ltb_lt; lia).
    inv Hx. cbn [sample_and_update].
    cbn [words flat_map]. fold (words xs). rewrite <- app_assoc.
    rewrite substr_ok by lia. cbn [bind skipn]. rewrite firstn_app_exact by apply le_encode_length.
    rewrite word_from_bytes by auto. cbn [bind].
    rewrite substr_from_ok by (rewrite app_length, le_encode_length; lia). cbn [bind].
    rewrite skipn_app_exact by apply le_encode_length.
    assert (HB : N.lor (if w <? 128 then w128 (N.shiftl (r / m) w) else 0) x = r / m mod S128 * W + x).
    { destruct (w <? 128) eqn:E; [apply next_word; auto|].
      unfold S128. replace (128 - w) with 0 by lia. rewrite N.pow_0_r, N.mod_1_r. reflexivity. }
    rewrite HB. destruct (IH (c + S k)%nat (r / m mod S128 * W + x) rest (S c) H2 ltac:(lia)) as (st & HE).
    rewrite HE. cbn [bind samples map]. rewrite reduced. eexists. reflexivity.
Qed.

Lemma from_bytes_tuple : forall r xs rest, r < 2 ^ 128 -> Forall (fun x => x < W) xs ->
  from_bytes (TTup (repeat (TMod w m) (S (length xs)))) (le_encode 16 r ++ words xs ++ rest)
  = Ok (VTup (map VNum (samples W S128 m r xs))).
Proof using Hok.
  intros r xs rest Hr Hx. unfold from_bytes. cbn [is_direct repeat forallb andb].
  pose proof (first_word r (words xs ++ rest) Hr) as HF.
  destruct (substr (le_encode 16 r ++ words xs ++ rest) 0 16); try discriminate.
  cbn [bind] in *. rewrite HF. cbn [bind].
  rewrite substr_from_ok by (rewrite app_length, le_encode_length; lia).
  rewrite skipn_app_exact by apply le_encode_length. cbn [bind].
  change (TMod w m :: repeat (TMod w m) (length xs)) with (repeat (TMod w m) (S (length xs))).
  cbn [sample_and_update]. rewrite repeat_length.
  destruct (tuple_samples xs (S (length xs)) r rest 0 Hx eq_refl) as (st & HE).
  rewrite HE. reflexivity.
Qed.

Lemma samples_distance : forall k,
  4 * tv_joint (samples W S128 m) (2 ^ 128) W m k <=
  N.of_nat (S k) * (N.of_nat (S k) + 1) * m ^ N.of_nat (k + 2) * W ^ N.of_nat k.
Proof using Hok.
  intros k. pose proof (cty_ok_mod _ _ Hok) as (Hw & Hm & Hm2).
  assert (Hw128 : w <= 128) by (widths Hw; lia).
  replace (2 ^ 128) with (S128 * W) by (unfold S128, W; rewrite <- N.pow_add_r; f_equal; lia).
  apply tv_joint_bound; auto; try apply pow2_pos. unfold W. lia.
Qed.
End Code.
