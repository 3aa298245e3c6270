(** Proofs about double arithmetic. *)
From Coq Require Import List NArith ZArith QArith Qabs Qround Lqa Lia Bool ZifyBool ZifyNat ZifyN.
From Verif Require Import Base ListUtil ValueTypesModel FloatModel FloatSpec.
Import ListNotations.
Open Scope N_scope.

Lemma pow_le_root : forall a b c, c <> 0 -> a ^ c <= b ^ c -> a <= b.
Proof. intros a b c Hc H. apply (N.pow_le_mono_l_iff a b c); auto. Qed.
Lemma exp_le_root : forall a b, 2 ^ a <= 2 ^ b -> a <= b.
Proof. intros a b H. apply (N.pow_le_mono_r_iff 2 a b); [lia|auto]. Qed.

Lemma npos_mul : forall p q, Npos (p * q) = Npos p * Npos q.
Proof. reflexivity. Qed.

(** ** The exact logarithm *)
Lemma log2_le_mono : forall x a b, (0 <= a)%Q -> (a <= b)%Q -> log2_le x a -> log2_le x b.
Proof.
  intros x [na da] [nb db] Ha Hab H. unfold log2_le, Qle in *. cbn [Qnum Qden] in *.
  apply pow_le_root with (Npos da); [discriminate|].
  rewrite <- !N.pow_mul_r, (N.mul_comm (Npos db)), N.pow_mul_r.
  apply N.le_trans with ((2 ^ Z.to_N na) ^ Npos db); [apply N.pow_le_mono_l; exact H|].
  rewrite <- N.pow_mul_r. apply N.pow_le_mono_r; [discriminate|]. lia.
Qed.
Lemma log2_ge_mono : forall x a b, (0 <= b)%Q -> (b <= a)%Q -> log2_ge x a -> log2_ge x b.
Proof.
  intros x [na da] [nb db] Hb Hab H. unfold log2_ge, Qle in *. cbn [Qnum Qden] in *.
  apply pow_le_root with (Npos da); [discriminate|].
  rewrite <- !N.pow_mul_r, (N.mul_comm (Npos db)), (N.pow_mul_r x).
  apply N.le_trans with ((2 ^ Z.to_N na) ^ Npos db); [|apply N.pow_le_mono_l; exact H].
  rewrite <- N.pow_mul_r. apply N.pow_le_mono_r; [discriminate|]. lia.
Qed.
Lemma log2_le_mul : forall x y a b, (0 <= a)%Q -> (0 <= b)%Q -> log2_le x a -> log2_le y b -> log2_le (x * y) (a + b).
Proof.
  intros x y [na da] [nb db] Ha Hb HX HY. unfold log2_le, Qle in *. cbn [Qnum Qden Qplus] in *.
  rewrite npos_mul. rewrite N.pow_mul_l.
  apply N.le_trans with ((2 ^ Z.to_N na) ^ Npos db * (2 ^ Z.to_N nb) ^ Npos da).
  - apply N.mul_le_mono.
    + rewrite N.pow_mul_r. apply N.pow_le_mono_l. exact HX.
    + rewrite (N.mul_comm (Npos da)), N.pow_mul_r. apply N.pow_le_mono_l. exact HY.
  - rewrite <- !N.pow_mul_r, <- N.pow_add_r. apply N.pow_le_mono_r; [discriminate|]. lia.
Qed.
Lemma bernoulli_above : forall A i, 2 * i <= A -> (A + 1) ^ i * A <= A ^ i * (A + 2 * i).
Proof.
  intros A i. induction i as [|i IH] using N.peano_ind; intros Hi; [rewrite !N.pow_0_r; lia|].
  rewrite !N.pow_succ_r'. specialize (IH ltac:(lia)).
  apply N.le_trans with ((A + 1) * (A ^ i * (A + 2 * i))).
  - rewrite <- N.mul_assoc. apply N.mul_le_mono_l. exact IH.
  - set (p := A ^ i). clearbody p. clear IH. replace ((A + 1) * (p * (A + 2 * i))) with (p * ((A + 1) * (A + 2 * i))) by lia.
    replace (A * p * (A + 2 * N.succ i)) with (p * (A * (A + 2 * N.succ i))) by lia. apply N.mul_le_mono_l. nia.
Qed.
Lemma bernoulli_below : forall A i, A ^ i * (A + i) <= (A + 1) ^ i * A.
Proof.
  intros A i. induction i as [|i IH] using N.peano_ind; [rewrite !N.pow_0_r; lia|]. rewrite !N.pow_succ_r'.
  apply N.le_trans with ((A + 1) * (A ^ i * (A + i))).
  - set (p := A ^ i). clearbody p. replace ((A + 1) * (p * (A + i))) with (p * ((A + 1) * (A + i))) by lia.
    replace (A * p * (A + N.succ i)) with (p * (A * (A + N.succ i))) by lia. apply N.mul_le_mono_l. nia.
  - rewrite <- N.mul_assoc. apply N.mul_le_mono_l. exact IH.
Qed.
(** A slightly larger number. *)
Lemma log2_le_scale : forall A J x y a, 0 < A -> 2 * Npos J <= A -> (0 <= a)%Q -> A * x <= (A + 1) * y ->
  log2_le y a -> log2_le x (a + (1 # J)).
Proof.
  intros A J x y [na da] HA HJ Ha Hxy H. unfold log2_le, Qle in *. cbn [Qnum Qden Qplus] in *.
  assert (HB : (A + 1) ^ Npos J <= 2 * A ^ Npos J).
  { apply N.mul_le_mono_pos_r with A; [exact HA|]. eapply N.le_trans; [apply bernoulli_above; exact HJ|].
    set (p := A ^ Npos J). clearbody p. nia. }
  assert (HX : x ^ Npos J <= 2 * y ^ Npos J).
  { apply N.mul_le_mono_pos_l with (A ^ Npos J); [apply N.neq_0_lt_0; apply N.pow_nonzero; lia|].
    rewrite <- N.pow_mul_l. eapply N.le_trans; [apply N.pow_le_mono_l; exact Hxy|]. rewrite N.pow_mul_l.
    replace (A ^ Npos J * (2 * y ^ Npos J)) with (2 * A ^ Npos J * y ^ Npos J) by lia. apply N.mul_le_mono_r. exact HB. }
  rewrite npos_mul, (N.mul_comm (Npos da)), N.pow_mul_r.
  apply N.le_trans with ((2 * y ^ Npos J) ^ Npos da); [apply N.pow_le_mono_l; exact HX|].
  rewrite N.pow_mul_l, <- N.pow_mul_r, (N.mul_comm (Npos J)), N.pow_mul_r.
  apply N.le_trans with (2 ^ Npos da * (2 ^ Z.to_N na) ^ Npos J); [apply N.mul_le_mono_l; apply N.pow_le_mono_l; exact H|].
  rewrite <- N.pow_mul_r, <- N.pow_add_r. apply N.pow_le_mono_r; [discriminate|]. lia.
Qed.
Lemma at_most_intro : forall X c a e, (0 <= a)%Q -> (0 <= e)%Q -> (0 <= inject_Z (Z.of_N c) + e - a)%Q ->
  log2_le X (inject_Z (Z.of_N c) + e - a) -> at_most_2_pow_minus X (2 ^ c) a e.
Proof.
  intros X c [na da] [ne de] Ha He Hn H. unfold at_most_2_pow_minus. cbn [Qnum Qden].
  set (t := ((Z.of_N c * Zpos da * Zpos de + ne * Zpos da - na * Zpos de) # (da * de))%Q).
  assert (Ht : (inject_Z (Z.of_N c) + (ne # de) - (na # da) == t)%Q).
  { unfold t, Qeq. cbn [Qnum Qden Qplus Qminus Qopp inject_Z]. rewrite !Pos2Z.inj_mul. ring. }
  apply (log2_le_mono _ _ t Hn) in H; [|rewrite Ht; apply Qle_refl].
  assert (Ht0 : (0 <= t)%Q) by (rewrite <- Ht; exact Hn). 
  unfold log2_le in H. unfold t in H, Ht0. unfold Qle in Ht0, Ha, He. cbn [Qnum Qden] in H, Ht0, Ha, He. clear t Ht Hn.
  rewrite npos_mul in H.
  eapply N.le_trans; [apply N.mul_le_mono_r; exact H|]. rewrite <- !N.pow_mul_r, <- !N.pow_add_r.
  apply N.pow_le_mono_r; [discriminate|]. lia.
Qed.

Lemma log2_ge_mul : forall x y a b, (0 <= a)%Q -> (0 <= b)%Q -> log2_ge x a -> log2_ge y b -> log2_ge (x * y) (a + b).
Proof.
  intros x y [na da] [nb db] Ha Hb HX HY. unfold log2_ge, Qle in *. cbn [Qnum Qden Qplus] in *.
  rewrite npos_mul. rewrite N.pow_mul_l.
  apply N.le_trans with ((2 ^ Z.to_N na) ^ Npos db * (2 ^ Z.to_N nb) ^ Npos da).
  - rewrite <- !N.pow_mul_r, <- N.pow_add_r. apply N.pow_le_mono_r; [discriminate|]. lia.
  - apply N.mul_le_mono.
    + rewrite (N.pow_mul_r x). apply N.pow_le_mono_l. exact HX.
    + rewrite (N.mul_comm (Npos da)), (N.pow_mul_r y). apply N.pow_le_mono_l. exact HY.
Qed.
Lemma log2_ge_le : forall x a b, (0 <= a)%Q -> (0 <= b)%Q -> log2_ge x a -> log2_le x b -> (a <= b)%Q.
Proof.
  intros x [na da] [nb db] Ha Hb HA HB. unfold log2_ge, log2_le, Qle in *. cbn [Qnum Qden] in *.
  assert (H : 2 ^ (Z.to_N na * Npos db) <= 2 ^ (Z.to_N nb * Npos da)).
  { rewrite !N.pow_mul_r. apply N.le_trans with ((x ^ Npos da) ^ Npos db); [apply N.pow_le_mono_l; exact HA|].
    rewrite <- N.pow_mul_r, (N.mul_comm (Npos da)), N.pow_mul_r. apply N.pow_le_mono_l. exact HB. }
  apply exp_le_root in H. lia.
Qed.
Lemma at_most_elim : forall X c a, (0 <= a)%Q -> 0 < X -> at_most_2_pow_minus X (2 ^ c) a 0 ->
  (0 <= inject_Z (Z.of_N c) - a)%Q /\ log2_le X (inject_Z (Z.of_N c) - a).
Proof.
  intros X c [na da] Ha HX H. unfold at_most_2_pow_minus in H. cbn [Qnum Qden] in H. change (Z.to_N 0) with 0 in H.
  rewrite N.mul_0_l, N.pow_0_r, !N.mul_1_r in H. unfold Qle in Ha. cbn [Qnum Qden] in Ha. rewrite <- (N.pow_mul_r 2 c) in H.
  assert (HP : 0 < X ^ Npos da) by (apply N.neq_0_lt_0, N.pow_nonzero; lia).
  assert (HL : Z.to_N na <= c * Npos da).
  { apply exp_le_root. eapply N.le_trans; [|exact H]. set (p := X ^ Npos da) in *. set (q := 2 ^ Z.to_N na). clearbody p q. nia. }
  split.
  - unfold Qle. cbn [Qnum Qden Qplus Qminus Qopp inject_Z]. nia.
  - apply (log2_le_mono _ ((Z.of_N c * Zpos da - na) # da)%Q).
    + unfold Qle. cbn [Qnum Qden]. lia.
    + unfold Qle. cbn [Qnum Qden Qplus Qminus Qopp inject_Z]. rewrite Pos.mul_1_l. lia.
    + unfold log2_le. cbn [Qnum Qden]. apply N.mul_le_mono_pos_r with (2 ^ Z.to_N na); [apply N.neq_0_lt_0, N.pow_nonzero; discriminate|].
      rewrite <- N.pow_add_r. replace (Z.to_N (Z.of_N c * Zpos da - na) + Z.to_N na) with (c * Npos da) by lia. exact H.
Qed.

(** ** The security level *)
Lemma near_bounds : forall x y, near x y -> (0 <= y)%Q -> ((1 - ulp) * y <= x)%Q /\ (x <= (1 + ulp) * y)%Q.
Proof.
  intros x y H Hy. unfold near in H. rewrite (Qabs_pos y Hy) in H. apply Qabs_Qle_condition in H. split; lra.
Qed.
Ltac ulps := change ulp with (1 # 4503599627370496)%Q in *; try change slack with (1 # 1099511627776)%Q in *;
  change (1 # 2 ^ 50)%Q with (1 # 1125899906842624)%Q in *.
Section Level.
Variable O : dops.
Hypothesis HO : accurate O.

Lemma int_pos : forall n, 0 < n < 2 ^ 128 -> 0 < o_of_int O n <= 2 ^ 128 /\ (2 ^ 52 - 1) * n <= 2 ^ 52 * o_of_int O n.
Proof using HO.
  intros n Hn. pose proof (ac_int O HO n Hn) as HA.
  apply near_bounds in HA; [|unfold Qle; cbn; lia]. destruct HA as [HA HB].
  unfold ulp, Qle in HA, HB. cbn [Qnum Qden Qplus Qminus Qopp Qmult inject_Z] in HA, HB.
  assert (H1 : (2 ^ 52 - 1) * n <= 2 ^ 52 * o_of_int O n) by lia. split; [|exact H1]. split; [lia|].
  pose proof (ac_int_mono O HO n (2 ^ 128) ltac:(lia)) as HM. rewrite (ac_int_pow O HO 128) in HM by lia. exact HM.
Qed.
Lemma log2_of_above : forall n, 0 < n < 2 ^ 128 -> (0 <= log2_of O n)%Q /\
  log2_le n (log2_of O n * (1 + 2 * ulp) + (1 # (2 ^ 50))).
Proof using HO.
  intros n Hn. destruct (int_pos n Hn) as [HP HS]. pose proof (ac_log_nonneg O HO _ HP) as H0. split; [exact H0|].
  apply log2_le_scale with (A := 2 ^ 52 - 1) (y := o_of_int O n); [reflexivity|discriminate| |exact HS|apply (ac_log_above O HO); exact HP].
  unfold log2_of. set (r := o_log2 O _) in *. clearbody r. ulps. lra.
Qed.

Lemma level_sound : forall n m q, 0 < n -> n + 1 < 2 ^ 128 -> 0 < m < 2 ^ 128 -> (0 <= q)%Q ->
  (q <= get_security_level O n m)%Q -> at_most_2_pow_minus (m * n * (n + 1)) (2 ^ 131) q slack.
Proof using HO.
  intros n m q Hn Hn1 Hm Hq HL.
  destruct (log2_of_above m Hm) as [Hm0 Hml]. destruct (log2_of_above n ltac:(lia)) as [Hn0 Hnl].
  destruct (log2_of_above (n + 1) ltac:(lia)) as [Hk0 Hkl].
  unfold get_security_level in HL.
  set (rm := log2_of O m) in *. set (rn := log2_of O n) in *. set (rk := log2_of O (n + 1)) in *.
  pose proof (ac_add O HO rm rn) as H1. apply near_bounds in H1; [|lra]. set (s1 := o_add O rm rn) in *.
  pose proof (ac_add O HO s1 rk) as H2. apply near_bounds in H2; [|ulps; lra]. set (s2 := o_add O s1 rk) in *.
  pose proof (ac_sub O HO (inject_Z (128 + 3)) s2) as H3. set (lv := o_sub O _ s2) in *.
  change (inject_Z (128 + 3)) with 131%Q in *.
  assert (Hs2 : (s2 <= 131)%Q).
  { destruct (Qlt_le_dec 131 s2) as [Hlt|Hle]; [|exact Hle]. exfalso.
    unfold near in H3. rewrite (Qabs_neg (131 - s2)) in H3 by lra. apply Qabs_Qle_condition in H3. ulps. lra. }
  apply near_bounds in H3; [|lra].
  clearbody rm rn rk s1 s2 lv.
  pose proof (fun H H' => log2_le_mul _ _ _ _ H H' Hml Hnl) as Hmn. specialize (Hmn ltac:(ulps; lra) ltac:(ulps; lra)).
  pose proof (fun H H' => log2_le_mul _ _ _ _ H H' Hmn Hkl) as Hmnk. specialize (Hmnk ltac:(ulps; lra) ltac:(ulps; lra)).
  clear Hml Hnl Hkl Hmn.
  apply at_most_intro with (c := 131); [exact Hq|discriminate| |].
  - change (inject_Z (Z.of_N 131)) with 131%Q. ulps. lra.
  - eapply log2_le_mono; [| |exact Hmnk]; change (inject_Z (Z.of_N 131)) with 131%Q; ulps; lra.
Qed.

Lemma log2_of_below : forall n, 0 < n < 2 ^ 128 -> 2 ^ 52 * o_of_int O n <= (2 ^ 52 + 1) * n /\
  (0 <= log2_of O n)%Q /\ log2_ge (o_of_int O n) (log2_of O n * (1 - ulp)).
Proof using HO.
  intros n Hn. destruct (int_pos n Hn) as [HP _]. split; [|split; [apply (ac_log_nonneg O HO _ HP)|apply (ac_log_below O HO); exact HP]].
  pose proof (ac_int O HO n Hn) as HA. apply near_bounds in HA; [|unfold Qle; cbn; lia]. destruct HA as [_ HB].
  unfold ulp, Qle in HB. cbn [Qnum Qden Qplus Qminus Qopp Qmult inject_Z] in HB. lia.
Qed.
Lemma level_complete : forall n m q, 0 < n -> n + 1 < 2 ^ 128 -> 0 < m < 2 ^ 128 -> (0 <= q)%Q ->
  at_most_2_pow_minus (m * n * (n + 1)) (2 ^ 131) (q + slack) 0 -> (q <= get_security_level O n m)%Q.
Proof using HO.
  intros n m q Hn Hn1 Hm Hq HL.
  destruct (log2_of_below m Hm) as (Hmx & Hm0 & Hml). destruct (log2_of_below n ltac:(lia)) as (Hnx & Hn0 & Hnl).
  destruct (log2_of_below (n + 1) ltac:(lia)) as (Hkx & Hk0 & Hkl).
  apply at_most_elim in HL; [|ulps; lra|nia]. destruct HL as [HT HL].
  unfold get_security_level.
  set (rm := log2_of O m) in *. set (rn := log2_of O n) in *. set (rk := log2_of O (n + 1)) in *.
  set (xm := o_of_int O m) in *. set (xn := o_of_int O n) in *. set (xk := o_of_int O (n + 1)) in *.
  pose proof (fun H H' => log2_ge_mul _ _ _ _ H H' Hml Hnl) as Hmn. specialize (Hmn ltac:(ulps; lra) ltac:(ulps; lra)).
  pose proof (fun H H' => log2_ge_mul _ _ _ _ H H' Hmn Hkl) as Hmnk. specialize (Hmnk ltac:(ulps; lra) ltac:(ulps; lra)).
  change (inject_Z (Z.of_N 131)) with 131%Q in *.
  assert (HS1 : log2_le (xm * n * (n + 1)) (131 - (q + slack) + (1 # 2 ^ 50))).
  { eapply log2_le_scale with (A := 2 ^ 52); [reflexivity|discriminate|exact HT| |exact HL].
    clear - Hmx. set (A := 2 ^ 52) in *. clearbody A. rewrite !N.mul_assoc. apply N.mul_le_mono_r. apply N.mul_le_mono_r. exact Hmx. }
  assert (HS2 : log2_le (xm * xn * (n + 1)) (131 - (q + slack) + (1 # 2 ^ 50) + (1 # 2 ^ 50))).
  { eapply log2_le_scale with (A := 2 ^ 52); [reflexivity|discriminate| | |exact HS1]; [ulps; lra|].
    clear - Hnx. set (A := 2 ^ 52) in *. clearbody A.
    replace (A * (xm * xn * (n + 1))) with (A * xn * (xm * (n + 1))) by lia.
    replace ((A + 1) * (xm * n * (n + 1))) with ((A + 1) * n * (xm * (n + 1))) by lia. apply N.mul_le_mono_r. exact Hnx. }
  assert (HS3 : log2_le (xm * xn * xk) (131 - (q + slack) + (1 # 2 ^ 50) + (1 # 2 ^ 50) + (1 # 2 ^ 50))).
  { eapply log2_le_scale with (A := 2 ^ 52); [reflexivity|discriminate| | |exact HS2]; [ulps; lra|].
    clear - Hkx. set (A := 2 ^ 52) in *. clearbody A.
    replace (A * (xm * xn * xk)) with (A * xk * (xm * xn)) by lia.
    replace ((A + 1) * (xm * xn * (n + 1))) with ((A + 1) * (n + 1) * (xm * xn)) by lia. apply N.mul_le_mono_r. exact Hkx. }
  pose proof (fun H H' => log2_ge_le _ _ _ H H' Hmnk HS3) as HB. specialize (HB ltac:(ulps; lra) ltac:(ulps; lra)).
  pose proof (ac_add O HO rm rn) as H1. apply near_bounds in H1; [|lra]. set (s1 := o_add O rm rn) in *.
  pose proof (ac_add O HO s1 rk) as H2. apply near_bounds in H2; [|ulps; lra]. set (s2 := o_add O s1 rk) in *.
  pose proof (ac_sub O HO (inject_Z (128 + 3)) s2) as H3. set (lv := o_sub O _ s2) in *.
  change (inject_Z (128 + 3)) with 131%Q in *.
  clearbody rm rn rk s1 s2 lv. clear - HT HB H1 H2 H3 Hm0 Hn0 Hk0 Hq.
  assert (Hs2 : (s2 <= 131 - q - (1 # 2199023255552))%Q) by (ulps; lra).
  apply near_bounds in H3; [|lra]. ulps. lra.
Qed.

(** ** ceil(log2(n)) *)
Lemma ceil_between : forall n, (0 < n < 2 ^ 127)%Z -> (Z.log2 n <= ceil_log2 O n <= Z.log2_up n)%Z.
Proof using HO.
  intros n Hn. unfold ceil_log2, log2_of.
  set (k := N.log2 (Z.to_N n)). assert (HN : 0 < Z.to_N n) by lia.
  pose proof (N.log2_spec _ HN) as [HK1 HK2]. fold k in HK1, HK2.
  assert (Hk : k < 127). { apply (N.pow_lt_mono_r_iff 2); [lia|]. eapply N.le_lt_trans; [exact HK1|]. lia. }
  assert (HZk : Z.log2 n = Z.of_N k).
  { apply Z.log2_unique; [lia|]. rewrite <- (Z2N.id n) by lia. change 2%Z with (Z.of_N 2).
    replace (Z.succ (Z.of_N k)) with (Z.of_N (N.succ k)) by lia. rewrite <- !N2Z.inj_pow. lia. }
  assert (HI : 2 ^ k <= o_of_int O (Z.to_N n) <= 2 ^ (k + 1)).
  { assert (HP : 2 ^ (k + 1) <= 2 ^ 128) by (apply N.pow_le_mono_r; lia).
    rewrite <- (ac_int_pow O HO k) at 1 by lia. rewrite <- (ac_int_pow O HO (k + 1)) by lia.
    split; apply (ac_int_mono O HO); replace (N.succ k) with (k + 1) in HK2 by lia; lia. }
  pose proof (ac_log_between O HO k _ ltac:(lia) HI) as [HB1 HB2].
  assert (HC : (Z.of_N k <= Qceiling (o_log2 O (o_of_int O (Z.to_N n))) <= Z.of_N k + 1)%Z).
  { split.
    - rewrite <- (Qceiling_Z (Z.of_N k)). apply Qceiling_resp_le. exact HB1.
    - replace (Z.of_N k + 1)%Z with (Z.of_N (k + 1)) by lia. rewrite <- (Qceiling_Z (Z.of_N (k + 1))). apply Qceiling_resp_le. exact HB2. }
  split; [lia|].
  destruct (Z.eq_dec (Z.log2_up n) (Z.log2 n)) as [HE|HE].
  - (* a power of two *)
    assert (Hpow : n = (2 ^ Z.of_N k)%Z).
    { symmetry in HE. apply Z.log2_log2_up_exact in HE; [|lia]. destruct HE as (c & Hc). rewrite Hc in HZk |- *. rewrite Z.log2_pow2 in HZk; [congruence|].
      rewrite Hc in Hn. destruct (Z_le_dec 0 c) as [Hc0|Hc0]; [exact Hc0|]. rewrite Z.pow_neg_r in Hn by lia. lia. }
    assert (HPn : Z.to_N n = 2 ^ k) by (rewrite Hpow; rewrite <- (N2Z.id (2 ^ k)), N2Z.inj_pow; reflexivity).
    rewrite HPn, (ac_int_pow O HO) by lia.
    assert (HB3 : (o_log2 O (2 ^ k) <= inject_Z (Z.of_N k))%Q).
    { destruct (N.eq_dec k 0) as [->|Hk0]; [apply (ac_log_one O HO)|].
      pose proof (ac_log_between O HO (k - 1) (2 ^ k) ltac:(lia)) as HX. replace (k - 1 + 1) with k in HX by lia.
      apply HX. split; [apply N.pow_le_mono_r; lia|lia]. }
    rewrite HE, HZk. rewrite <- (Qceiling_Z (Z.of_N k)). apply Qceiling_resp_le. exact HB3.
  - pose proof (Z.le_log2_log2_up n). lia.
Qed.
Lemma ceil_exact : forall n, (0 < n <= 2 ^ 46)%Z -> ceil_log2 O n = Z.log2_up n.
Proof using HO.
  intros n Hn. pose proof (ceil_between n ltac:(lia)) as [H1 H2].
  destruct (Z.eq_dec (Z.log2_up n) (Z.log2 n)) as [HE|HE]; [lia|].
  pose proof (Z.le_log2_up_succ_log2 n) as HS.
  destruct (Z_le_dec (ceil_log2 O n) (Z.log2 n)) as [HC|HC]; [|pose proof (Z.le_log2_log2_up n); lia]. exfalso.
  set (k := Z.log2 n) in *. pose proof (Z.log2_spec n ltac:(lia)) as [HK1 HK2]. fold k in HK1, HK2.
  assert (Hk0 : (0 <= k)%Z) by apply Z.log2_nonneg.
  assert (HK : (2 ^ k <> n)%Z).
  { intros HK. apply HE. rewrite <- HK at 1. rewrite Z.log2_up_pow2 by lia. reflexivity. }
  assert (Hk : (k < 46)%Z).
  { apply (Z.pow_lt_mono_r_iff 2); [lia|lia|]. lia. }
  unfold ceil_log2, log2_of in HC. rewrite (ac_int_exact O HO) in HC by lia.
  assert (HX : 0 < Z.to_N n <= 2 ^ 128) by lia.
  pose proof (ac_log_nonneg O HO _ HX) as HR0. pose proof (ac_log_above O HO _ HX) as HRA.
  set (r := o_log2 O (Z.to_N n)) in *.
  assert (Hr : (r <= inject_Z k)%Q).
  { eapply Qle_trans; [apply Qle_ceiling|]. rewrite <- Zle_Qle. exact HC. }
  clearbody r.
  assert (HG : log2_ge (Z.to_N n) (inject_Z k + (1 # Z.to_pos (2 ^ k)))).
  { unfold log2_ge. cbn [Qnum Qden Qplus inject_Z]. rewrite Pos.mul_1_l.
    assert (HPk : (0 < 2 ^ k)%Z) by (apply Z.pow_pos_nonneg; lia). rewrite Z2Pos.id by exact HPk.
    replace (Npos (Z.to_pos (2 ^ k))) with (Z.to_N (2 ^ k)) by (destruct (2 ^ k)%Z; try lia; reflexivity).
    set (A := Z.to_N (2 ^ k)). assert (HA : 0 < A) by lia.
    assert (HA2 : A = 2 ^ Z.to_N k).
    { unfold A. rewrite <- (N2Z.id (2 ^ Z.to_N k)), N2Z.inj_pow, Z2N.id by lia. reflexivity. }
    replace (Z.to_N (k * 2 ^ k + 1 * 1)) with (Z.to_N k * A + 1) by (unfold A; rewrite <- Z2N.inj_mul, Z2N.inj_add by lia; reflexivity).
    rewrite N.pow_add_r, N.pow_mul_r, <- HA2, N.pow_1_r.
    apply N.le_trans with ((A + 1) ^ A); [|apply N.pow_le_mono_l; lia].
    apply N.mul_le_mono_pos_r with A; [exact HA|]. eapply N.le_trans; [|apply bernoulli_below].
    rewrite <- N.mul_assoc. apply N.mul_le_mono_l. lia. }
  pose proof (fun H H' => log2_le_mono _ _ (inject_Z k * (1 + 2 * ulp))%Q H H' HRA) as HRB.
  specialize (HRB ltac:(ulps; lra) ltac:(ulps; lra)).
  assert (Hkq : (0 <= inject_Z k)%Q) by (unfold Qle; cbn; lia).
  apply log2_ge_le with (b := (inject_Z k * (1 + 2 * ulp))%Q) in HG; [| |ulps; lra|exact HRB].
  - assert (HG2 : (1 # Z.to_pos (2 ^ k) <= inject_Z k * (2 * ulp))%Q) by (ulps; lra).
    assert (HP46 : (2 ^ k <= 2 ^ 45)%Z) by (apply Z.pow_le_mono_r; lia).
    unfold Qle, ulp in HG2. cbn [Qnum Qden Qplus Qmult inject_Z] in HG2.
    rewrite Z2Pos.id in HG2 by (apply Z.pow_pos_nonneg; lia).
    assert (HKP : (k * 2 ^ k <= 45 * 2 ^ 45)%Z) by (apply Z.mul_le_mono_nonneg; [lia|lia|apply Z.pow_nonneg; lia|exact HP46]).
    set (P := (2 ^ k)%Z) in *. clearbody P. lia.
  - assert (0 <= 1 # Z.to_pos (2 ^ k))%Q by discriminate. lra.
Qed.
End Level.

(** ** Operations that are accurate: with a logarithm of 2^60 binary places *)
Definition fine : positive := 1152921504606846976%positive.
Definition fine_ops : dops := {|
  o_of_int := fun n => n;
  o_log2 := fun x => (Z.of_N (N.log2 (x ^ Npos fine)) # fine)%Q;
  o_add := Qplus;
  o_sub := Qminus
|}.
Lemma near_refl : forall x, near x x.
Proof.
  intros x. unfold near. setoid_replace (x - x)%Q with 0%Q by ring. change (Qabs 0) with 0%Q.
  pose proof (Qabs_nonneg x). ulps. lra.
Qed.
Lemma fine_accurate : accurate fine_ops.
Proof.
  assert (HF : forall P, 0 < Npos P -> forall x, 0 < x -> 2 ^ N.log2 (x ^ Npos P) <= x ^ Npos P < 2 ^ (N.log2 (x ^ Npos P) + 1)).
  { intros P _ x Hx. rewrite N.add_1_r. apply N.log2_spec. apply N.neq_0_lt_0, N.pow_nonzero. lia. }
  constructor; cbn [fine_ops o_of_int o_log2 o_add o_sub]; auto using near_refl.
  - intros n n' H. apply H.
  - intros x _. unfold Qle. cbn [Qnum Qden]. lia.
  - intros x [Hx _]. specialize (HF fine eq_refl x Hx). destruct HF as [HF1 HF2].
    destruct (N.eq_dec x 1) as [->|Hx1].
    { rewrite N.pow_1_l. change (N.log2 1) with 0. unfold log2_le. rewrite N.pow_1_l.
      apply N.neq_0_lt_0 in Hx. pose proof (N.pow_nonzero 2 (Z.to_N (Qnum ((Z.of_N 0 # fine) * (1 + 2 * ulp)))) ltac:(lia)). lia. }
    assert (HP : Npos fine <= N.log2 (x ^ Npos fine)).
    { rewrite <- (N.log2_pow2 (Npos fine)) at 1 by lia. apply N.log2_le_mono. apply N.pow_le_mono_l. lia. }
    set (a := N.log2 (x ^ Npos fine)) in *. clearbody a.
    apply log2_le_mono with (Z.of_N (a + 1) # fine)%Q.
    + unfold Qle. cbn [Qnum Qden]. lia.
    + clear - HP. unfold Qle, ulp. cbn [Qnum Qden Qplus Qmult]. unfold fine in *. lia.
    + unfold log2_le. cbn [Qnum Qden]. rewrite N2Z.id. lia.
  - intros x [Hx _]. specialize (HF fine eq_refl x Hx). destruct HF as [HF1 HF2].
    set (a := N.log2 (x ^ Npos fine)) in *. clearbody a.
    apply log2_ge_mono with (Z.of_N a # fine)%Q.
    + clear. unfold Qle, ulp. cbn [Qnum Qden Qplus Qmult Qopp Qminus]. lia.
    + clear. unfold Qle, ulp. cbn [Qnum Qden Qplus Qmult Qopp Qminus]. unfold fine. lia.
    + unfold log2_ge. cbn [Qnum Qden]. rewrite N2Z.id. exact HF1.
  - intros k x _ [Hx1 Hx2].
    assert (HA : k * Npos fine <= N.log2 (x ^ Npos fine)).
    { rewrite <- (N.log2_pow2 (k * Npos fine)) by lia. apply N.log2_le_mono. rewrite N.pow_mul_r. apply N.pow_le_mono_l. exact Hx1. }
    assert (HB : N.log2 (x ^ Npos fine) <= (k + 1) * Npos fine).
    { rewrite <- (N.log2_pow2 ((k + 1) * Npos fine)) by lia. apply N.log2_le_mono. rewrite N.pow_mul_r. apply N.pow_le_mono_l. exact Hx2. }
    set (a := N.log2 (x ^ Npos fine)) in *. clearbody a. unfold Qle. cbn [Qnum Qden inject_Z]. lia.
  - rewrite N.pow_1_l. discriminate.
Qed.
