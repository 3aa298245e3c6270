(** C78: the distribution of a value correction over the other party's random bytes. *)
From Coq Require Import List NArith ZArith QArith Lia Bool ZifyBool ZifyNat ZifyN.
From Verif Require Import Base ListUtil ValueTypesModel ValueTypesSpec ValueTypesProofs
  ConvProofs ConvSurj SampleSpec SampleProofs SampleJoint SampleMixed
  TypeProofs DpfModel DpfSpec DpfWf DpfExamples CorrectionSpec CorrectionProofs.
Import ListNotations.
Ltac Zify.zify_post_hook ::= Z.div_mod_to_equations.
Open Scope N_scope.

(** * C78 *)

(** Types converted directly: over all contents of the other party's bytes, every test on the correction
    accepts equally often, whatever beta, block index, control bit and own bytes are. *)
Theorem C78_direct : forall T second L own own' idx idx' beta beta' bT bT' invert invert'
    (test : res (list pvalue) -> bool),
  cty_ok T = true -> is_direct T = true -> enough_bytes T L ->
  enough_bytes T (length own) -> enough_bytes T (length own') ->
  from_value T beta = Ok bT -> from_value T beta' = Ok bT' ->
  (idx < elements_per_block T)%nat -> (idx' < elements_per_block T)%nat ->
  count (fun other => test (seen T second own other idx beta invert)) (tuples L 256) =
  count (fun other => test (seen T second own' other idx' beta' invert')) (tuples L 256).
Proof.
  intros T second L own own' idx idx' beta beta' bT bT' invert invert' test Hok Hd HL Ho Ho' HB HB' Hi Hi'.
  destruct (convert_bytes_ok T own Hok Ho) as (ea & HA & HLa & HWa).
  destruct (convert_bytes_ok T own' Hok Ho') as (ea' & HA' & HLa' & HWa').
  unfold enough_bytes in HL. rewrite Hd in HL.
  exact (direct_count T second L own own' idx idx' beta beta' invert invert' ea ea' bT bT' test
           Hok Hd HL HA HA' (conj HLa HWa) (conj HLa' HWa') HB HB' Hi Hi').
Qed.
Print Assumptions C78_direct.

(** Types that are sampled, tuples nested to any depth included: every test on the correction accepts
    almost equally often.  The difference is at most bias_cost / 2^129 of all contents of the other party's bytes; for
    [n] elements IntModN with modulus [m] this is m * n * (n + 1) / 2^130, twice the distance that
    GetNumBytesRequired promises for [n] samples. *)
Theorem C78_sampled : forall T second own own' rest rest' beta beta' bT bT' invert invert'
    (test : res (list pvalue) -> bool),
  cty_ok T = true -> is_direct T = false ->
  enough_bytes T (length own) -> enough_bytes T (length own') ->
  from_value T beta = Ok bT -> from_value T beta' = Ok bT' ->
  2 ^ 129 * dist
    (count (fun i => test (seen T second own (seed_bytes T i rest) 0 beta invert)) (seed_space (2 ^ 128) T))
    (count (fun i => test (seen T second own' (seed_bytes T i rest') 0 beta' invert')) (seed_space (2 ^ 128) T))
  <= bias_cost (leaves T) * (2 ^ 128 * productN (map (fun l => 2 ^ leaf_width l) (removelast (leaves T)))).
Proof.
  intros T second own own' rest rest' beta beta' bT bT' invert invert' test Hok Hd Ho Ho' HB HB'.
  destruct (convert_bytes_ok T own Hok Ho) as (ea & HA & HLa & HWa).
  destruct (convert_bytes_ok T own' Hok Ho') as (ea' & HA' & HLa' & HWa').
  remember (2 ^ 128) as M eqn:HM.
  pose proof (sampled_count T second M own own' rest rest' 0 0 beta beta' invert invert' ea ea' bT bT' test
           Hok Hd HM HA HA' (conj HLa HWa) (conj HLa' HWa') HB HB' eq_refl eq_refl) as HS.
  change (2 ^ 129) with (2 ^ 128 * 2). rewrite <- HM.
  unfold seen. set (d := dist _ _) in *. set (c := productN _) in *. clearbody d c.
  replace (bias_cost (leaves T) * (M * c)) with (M * (c * bias_cost (leaves T))) by lia.
  rewrite <- N.mul_assoc. apply N.mul_le_mono_l. exact HS.
Qed.
Print Assumptions C78_sampled.
(** The bound for tuples of equal IntModN elements. *)
Lemma weighted_repeat : forall m n i, 2 * weighted_from i (repeat m n) = m * N.of_nat n * (2 * i + N.of_nat n - 1).
Proof.
  intros m n. induction n as [|n IH]; intros i; [cbn [repeat weighted_from]; lia|]. cbn [repeat weighted_from].
  rewrite N.mul_add_distr_l, IH. replace (N.of_nat (S n)) with (N.of_nat n + 1) by lia.
  destruct (N.eq_dec (N.of_nat n) 0) as [->|Hn]; [replace (2 * i + (0 + 1) - 1) with (2 * i) by lia; lia|].
  replace (2 * (i + 1) + N.of_nat n - 1) with (2 * i + N.of_nat n + 1) by lia.
  replace (2 * i + (N.of_nat n + 1) - 1) with (2 * i + N.of_nat n) by lia. lia.
Qed.
Theorem C78_mod_cost : forall w m k, let n := N.of_nat (S k) in
  2 * bias_cost (leaves (TTup (repeat (TMod w m) (S k)))) = m * n * (n + 1) /\
  2 * bias_cost (leaves (TMod w m)) = m * 1 * (1 + 1).
Proof.
  intros w m k n. split.
  - assert (HF : leaves (TTup (repeat (TMod w m) (S k))) = repeat (TMod w m) (S k)).
    { cbn [leaves]. generalize (S k) as j. induction j as [|j IH]; [reflexivity|]. cbn [repeat flat_map leaves app]. rewrite IH. reflexivity. }
    rewrite HF. change (bias_cost (repeat (TMod w m) (S k))) with (weighted_from 1 (map leaf_modulus (repeat (TMod w m) (S k)))).
    assert (HE : map leaf_modulus (repeat (TMod w m) (S k)) = repeat m (S k)).
    { generalize (S k) as j. induction j as [|j IH]; [reflexivity|]. cbn [repeat map leaf_modulus]. rewrite IH. reflexivity. }
    rewrite HE, weighted_repeat. fold n. unfold n. lia.
  - cbn [leaves bias_cost map leaf_modulus weighted_from]. lia.
Qed.
Print Assumptions C78_mod_cost.

(** A 128-bit integer after an IntModN is far from uniform, so the correction of such a tuple reveals
    the top bit of beta with advantage 1/4, although Create accepts the type and reserves enough blocks. *)
Definition xr_mod : N := 3 * 2 ^ 30.
Definition xr_T : cty := TTup [TMod 32 xr_mod; TInt 128].
Definition xr_ps : list param := [ {| p_ld := 3; p_vt := Some (to_value_type xr_T); p_sec := DFin 43 |} ].
Definition xr_d : dpf := Eval vm_compute in ex_create ex_F xr_ps [xr_T].
Definition xr_test (r : res (list pvalue)) : bool :=
  match r with
  | Ok [p] => match from_value xr_T p with Ok (VTup [_; VNum v]) => v <? 2 ^ 127 | _ => false end
  | _ => false
  end.
Definition xr_own : bytes := repeat 0 32.

Lemma seed_space_intro : forall M t i, fst i < M ->
  Forall2 (fun x b => x < b) (snd i) (map (fun l => 2 ^ leaf_width l) (removelast (leaves t))) -> In i (seed_space M t).
Proof. intros M t [r xs] Hr Hx. unfold seed_space. rewrite in_prod_iff, in_all_below, in_mixed. auto. Qed.
Lemma xr_seen : forall r x v rest, r < 2 ^ 128 -> x < 2 ^ 32 -> v < 2 ^ 128 ->
  xr_test (seen xr_T true xr_own (seed_bytes xr_T (r, [x]) rest) 0 (to_value xr_T (VTup [VNum 0; VNum v])) false)
  = (((r / xr_mod mod 2 ^ 96 * 2 ^ 32 + x) + v) mod 2 ^ 128 <? 2 ^ 127).
Proof.
  intros r x v rest Hr Hx Hv. unfold seen.
  assert (Hin : In (r, [x]) (seed_space (2 ^ 128) xr_T)).
  { apply seed_space_intro; cbn [fst snd]; auto.
    change (map (fun l => 2 ^ leaf_width l) (removelast (leaves xr_T))) with [2 ^ 32]. constructor; auto. }
  pose proof (sampled_code xr_T eq_refl eq_refl (2 ^ 128) (r, [x]) rest eq_refl Hin) as HS. cbn [fst snd] in HS.
  clear Hin. change (tleaves xr_T) with [(32, xr_mod); (128, 2 ^ 128)] in HS.
  cbn [app mixed_samples snd fst] in HS.
  change (2 ^ (128 - 32)) with (2 ^ 96) in HS.
  assert (HB : r / xr_mod mod 2 ^ 96 * 2 ^ 32 + x < 2 ^ 128).
  { pose proof (N.mod_lt (r / xr_mod) (2 ^ 96) ltac:(discriminate)) as HM.
    set (q := _ mod _) in *. clearbody q. change (2 ^ 128) with (2 ^ 96 * 2 ^ 32). nia. }
  rewrite (N.mod_small (r / xr_mod mod 2 ^ 96 * 2 ^ 32 + x) (2 ^ 128)) in HS by auto.
  set (s := r / xr_mod mod 2 ^ 96 * 2 ^ 32 + x) in *. 
  assert (Hf : r mod xr_mod < xr_mod) by (apply N.mod_lt; discriminate).
  set (f := r mod xr_mod) in *. clearbody s f.
  assert (Hmk : mkval xr_T [f; s] = VTup [VNum f; VNum s]) by reflexivity. rewrite Hmk in HS.
  assert (Hb : from_value xr_T (to_value xr_T (VTup [VNum 0; VNum v])) = Ok (VTup [VNum 0; VNum v])).
  { apply from_to_value; [reflexivity|]. cbn [xr_T wt all2]. apply N.ltb_lt in Hv. rewrite Hv. reflexivity. }
  assert (Hgood : good xr_T [VTup [VNum f; VNum s]]).
  { split; [reflexivity|]. constructor; [|constructor]. cbn [xr_T wt all2].
    apply N.ltb_lt in Hf, HB. rewrite Hf, HB. reflexivity. }
  assert (Hown : convert_bytes xr_T xr_own = Ok [VTup [VNum 0; VNum 0]]) by (vm_compute; reflexivity).
  assert (Hg0 : good xr_T [VTup [VNum 0; VNum 0]]) by (split; [reflexivity|repeat constructor]).
  assert (Hw : wt xr_T (VTup [VNum 0; VNum v]) = true) by (eapply from_value_wt; [reflexivity|exact Hb]).
  rewrite (corr_code xr_T xr_own _ _ _ 0%nat _ _ false eq_refl Hg0 Hgood Hb Hw ltac:(vm_compute; lia) Hown HS).
  pose proof (corr_good xr_T _ _ 0%nat _ false eq_refl Hg0 Hgood Hw) as [_ HWc].
  set (cs := corr_elements xr_T _ _ _ _ _) in *.
  assert (Hcs : exists f', cs = [VTup [VNum f'; VNum ((s + v) mod 2 ^ 128)]]).
  { unfold cs, corr_elements. change (elements_per_block xr_T) with 1%nat. cbn [seq map].
    cbn [nth DpfPrivacy.cdelta Nat.eqb]. unfold DpfPrivacy.csign, DpfPrivacy.cdelta. cbn [Nat.eqb].
    unfold xr_T. cbn [vadd vneg zip2 zip3]. eexists. do 4 f_equal.
    change ((2 ^ 128 - 0 mod 2 ^ 128) mod 2 ^ 128) with 0. rewrite N.add_0_r. f_equal. apply N.mod_mod. discriminate. }
  destruct Hcs as (f' & Hcs). rewrite Hcs in *. cbn [map xr_test].
  rewrite from_to_value; [reflexivity|reflexivity|]. inversion HWc. auto.
Qed.
Lemma mod_below_half : forall q k, 0 < k -> (q mod (2 * k) <? k) = N.even (q / k).
Proof.
  intros q k Hk. pose proof (N.div_mod q (2 * k) ltac:(lia)) as HD. pose proof (N.mod_lt q (2 * k) ltac:(lia)) as HR.
  set (a := q / (2 * k)) in *. set (b := q mod (2 * k)) in *. clearbody a b. destruct (N.ltb_spec b k) as [E|E].
  - replace (q / k) with (2 * a); [rewrite N.even_mul; reflexivity|]. apply N.div_unique with b; nia.
  - replace (q / k) with (2 * a + 1); [rewrite N.even_add, N.even_mul; reflexivity|]. apply N.div_unique with (b - k); nia.
Qed.
Lemma xr_top : forall r x (v : bool), x < 2 ^ 32 ->
  (((r / xr_mod mod 2 ^ 96 * 2 ^ 32 + x) + (if v then 2 ^ 127 else 0)) mod 2 ^ 128 <? 2 ^ 127)
  = xorb v (N.even (r / (3 * 2 ^ 125))).
Proof.
  intros r x v Hx. change (3 * 2 ^ 125) with (xr_mod * 2 ^ 95). rewrite <- N.div_div by discriminate.
  rewrite <- mod_below_half by reflexivity. change (2 * 2 ^ 95) with (2 ^ 96).
  pose proof (N.mod_lt (r / xr_mod) (2 ^ 96) ltac:(discriminate)) as HM. set (q := _ mod 2 ^ 96) in *. clearbody q.
  change (2 ^ 96) with (2 * 2 ^ 95) in HM. set (h := 2 ^ 95) in *. assert (Hh : 2 ^ 127 = h * 2 ^ 32) by reflexivity.
  assert (HH : 2 ^ 128 = 2 * h * 2 ^ 32) by reflexivity. rewrite Hh, HH. set (u := 2 ^ 32) in *. clearbody h u.
  destruct v; cbn [xorb].
  - destruct (N.ltb_spec q h) as [E|E]; cbn [negb].
    + rewrite N.mod_small by nia. apply N.ltb_ge. nia.
    + apply N.ltb_lt. replace (q * u + x + h * u) with ((q - h) * u + x + 1 * (2 * h * u)) by nia.
      rewrite N.mod_add by nia. rewrite N.mod_small by nia. nia.
  - rewrite N.add_0_r, N.mod_small by nia. destruct (N.ltb_spec q h) as [E|E]; [apply N.ltb_lt|apply N.ltb_ge]; nia.
Qed.
Lemma count_negb : forall A (p : A -> bool) l, count (fun x => negb (p x)) l = N.of_nat (length l) - count p l.
Proof.
  intros A p l.
  assert (HS : count (fun x => negb (p x)) l + count p l = N.of_nat (length l)); [|lia].
  unfold count. induction l as [|a l IH]; [reflexivity|]. cbn [filter length].
  destruct (p a); cbn [negb length]; lia.
Qed.
Lemma xr_count : forall M (v : bool), M = 2 ^ 128 ->
  count (fun i : N * list N => xorb v (N.even (fst i / (3 * 2 ^ 125)))) (seed_space M xr_T)
  = (if v then 3 else 5) * 2 ^ 125 * 2 ^ 32.
Proof.
  intros M v HM. unfold seed_space. change (map (fun l => 2 ^ leaf_width l) (removelast (leaves xr_T))) with [2 ^ 32].
  rewrite (count_ext _ _ (fun i => (fun r => xorb v (N.even (r / (3 * 2 ^ 125)))) (fst i) && (fun _ => true) (snd i)))
    by (intros i _; rewrite andb_true_r; reflexivity).
  rewrite (count_prod _ _ (fun r => xorb v (N.even (r / (3 * 2 ^ 125)))) (fun _ => true)).
  assert (HX : count (fun _ : list N => true) (mixed_tuples [2 ^ 32]) = 2 ^ 32).
  { rewrite count_sum, sumN_const, mixed_length. unfold productN. cbn [fold_right]. lia. }
  rewrite HX. clear HX.
  pose proof (count_block_even (3 * 2 ^ 125) M ltac:(reflexivity)) as HE.
  assert (HV : 3 * 2 ^ 125 * (M / (2 * (3 * 2 ^ 125))) + N.min (M mod (2 * (3 * 2 ^ 125))) (3 * 2 ^ 125) = 5 * 2 ^ 125)
    by (rewrite HM; reflexivity).
  rewrite HV in HE. clear HV. destruct v; cbn [xorb].
  - rewrite (count_negb _ (fun r => N.even (r / (3 * 2 ^ 125)))), HE, all_below_length, N2Nat.id, HM. reflexivity.
  - rewrite (count_ext _ _ (fun r => N.even (r / (3 * 2 ^ 125)))) by (intros r _; destruct (N.even _); reflexivity).
    rewrite HE. reflexivity.
Qed.
Theorem C78_refuted : exists F ps d T own beta beta' (test : res (list pvalue) -> bool),
  created F ps [T] d /\ level_has ps 0 T /\ cty_ok T = true /\ is_direct T = false /\
  enough_bytes T (16 * blocks d 0) /\ length own = (16 * blocks d 0)%nat /\
  is_ok (from_value T beta) = true /\ is_ok (from_value T beta') = true /\
  forall rest,
  4 * dist
    (count (fun i => test (seen T true own (seed_bytes T i rest) 0 beta false)) (seed_space (2 ^ 128) T))
    (count (fun i => test (seen T true own (seed_bytes T i rest) 0 beta' false)) (seed_space (2 ^ 128) T))
  = 2 ^ 128 * productN (map (fun l => 2 ^ leaf_width l) (removelast (leaves T))).
Proof.
  exists ex_F, xr_ps, xr_d, xr_T, xr_own, (to_value xr_T (VTup [VNum 0; VNum 0])), (to_value xr_T (VTup [VNum 0; VNum (2 ^ 127)])), xr_test.
  split. { exists (ex_create ex_F xr_ps []). split; [vm_compute; reflexivity|]. split; [repeat constructor|vm_compute; reflexivity]. }
  split. { split; [reflexivity|]. eexists. split; [reflexivity|]. apply to_value_type_denotes. reflexivity. }
  do 2 (split; [reflexivity|]). split; [vm_compute; lia|]. split; [vm_compute; reflexivity|].
  do 2 (split; [vm_compute; reflexivity|]). intros rest.
  change (map (fun l => 2 ^ leaf_width l) (removelast (leaves xr_T))) with [2 ^ 32].
  assert (HC : forall M (v : bool), M = 2 ^ 128 ->
    count (fun i => xr_test (seen xr_T true xr_own (seed_bytes xr_T i rest) 0 (to_value xr_T (VTup [VNum 0; VNum (if v then 2 ^ 127 else 0)])) false)) (seed_space M xr_T)
    = (if v then 3 else 5) * 2 ^ 125 * 2 ^ 32).
  { intros M v HM. rewrite <- (xr_count M v HM). apply count_ext. intros [r xs] Hin.
    apply in_seed_space in Hin. cbn [fst snd] in Hin. destruct Hin as [Hr Hx]. rewrite HM in Hr.
    change (map (fun l => 2 ^ leaf_width l) (removelast (leaves xr_T))) with [2 ^ 32] in Hx.
    inversion Hx as [|x b xs' bs Hx0 Hxs]. subst. inversion Hxs. subst.
    rewrite xr_seen by (auto; destruct v; reflexivity). cbn [fst]. apply xr_top. auto. }
  rewrite (HC (2 ^ 128) false eq_refl), (HC (2 ^ 128) true eq_refl). reflexivity.
Qed.
Print Assumptions C78_refuted.

(** A tuple of an integer and a nested tuple of an IntModN and another integer meets the hypotheses of [C78_sampled], and
    the bound is far from trivial; the direct type has several elements per block. *)
Example C78_nonvacuous :
  (let T := TTup [TInt 64; TTup [TMod 64 1000003; TInt 32]] in
   cty_ok T = true /\ is_direct T = false /\ enough_bytes T 32 /\
   is_ok (from_value T (to_value T (VTup [VNum 7; VTup [VNum 1000002; VNum 9]]))) = true /\
   bias_cost (leaves T) = 1000003 + 2 * 2 ^ 32 /\
   seen T true (map N.of_nat (seq 1 32)) (seed_bytes T (2 ^ 127 + 5, [11; 12]) [1; 2; 3]) 0
     (to_value T (VTup [VNum 7; VTup [VNum 1000002; VNum 9]])) true <> 
   seen T true (map N.of_nat (seq 1 32)) (seed_bytes T (2 ^ 127 + 6, [11; 12]) [1; 2; 3]) 0
     (to_value T (VTup [VNum 7; VTup [VNum 1000002; VNum 9]])) true) /\
  (let T := TTup [TInt 16; TXor 8] in
   cty_ok T = true /\ is_direct T = true /\ enough_bytes T 16 /\ elements_per_block T = 5%nat /\
   is_ok (from_value T (to_value T (VTup [VNum 7; VNum 255]))) = true).
Proof.
  split; cbv zeta.
  - do 2 (split; [reflexivity|]). split; [vm_compute; lia|]. split; [vm_compute; reflexivity|]. split; [vm_compute; reflexivity|].
    vm_compute. discriminate.
  - do 2 (split; [reflexivity|]). split; [vm_compute; lia|]. split; [reflexivity|vm_compute; reflexivity].
Qed.
