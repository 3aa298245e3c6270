(** The distribution of a whole key over the other party's value blocks. *)
From Coq Require Import List NArith ZArith Lia Bool Permutation ZifyBool ZifyNat ZifyN.
From Verif Require Import Base ListUtil ValueTypesModel ValueTypesSpec ValueTypesProofs
  ConvProofs ConvSurj SampleSpec SampleProofs SampleJoint SampleMixed
  BitsProofs TypeProofs DpfModel DpfTree DpfWf DpfGen DpfPoint DpfSpec DpfHist DpfCreate DpfFacts
  DpfPrivacySpec DpfPrivacy DpfShape DpfHide DpfBiject CorrectionSpec CorrectionProofs KeyDistSpec.
Import ListNotations.
Ltac Zify.zify_post_hook ::= Z.div_mod_to_equations.
Open Scope N_scope.

Lemma app_eq_len : forall A (a b c d : list A), a ++ c = b ++ d -> length a = length b -> a = b /\ c = d.
Proof.
  intros A a. induction a as [|x a IH]; intros [|y b] c d H HL; try discriminate; [auto|].
  cbn [app] in H. injection H as -> H. cbn [length] in HL. destruct (IH b c d H ltac:(lia)) as [-> ->]. auto.
Qed.

(** ** Byte strings as a first block, words and the rest *)
Definition words_size (ts : list cty) : nat := fold_right (fun t n => (nbytes (leaf_width t) + n)%nat) 0%nat ts.
Lemma words_size_app : forall a b, words_size (a ++ b) = (words_size a + words_size b)%nat.
Proof. induction a as [|t a IH]; intros b; [reflexivity|]. cbn [app words_size fold_right]. fold (words_size (a ++ b)) (words_size a). rewrite IH. lia. Qed.
Lemma width_bytes : forall w, cwidth_ok w = true -> 2 ^ w = 256 ^ N.of_nat (nbytes w).
Proof. intros w H. widths H; reflexivity. Qed.
Lemma leaf_bytes_leaves : forall t, leaf_bytes t = words_size (leaves t).
Proof.
  induction t as [w|w m|w|ts IH] using cty_ind'; try (cbn [leaf_bytes leaves words_size fold_right leaf_width]; lia).
  cbn [leaf_bytes leaves].
  induction ts as [|t ts IHts]; [reflexivity|]. fcons IH H1 H2. cbn [fold_right flat_map].
  rewrite words_size_app, <- H1, <- IHts by auto. reflexivity.
Qed.
Lemma last_app_ne : forall A (a b : list A) x, b <> [] -> last (a ++ b) x = last b x.
Proof.
  intros A a b x Hb. induction a as [|y a IH]; [reflexivity|]. cbn [app last]. rewrite IH.
  destruct (a ++ b) eqn:E; auto. apply app_eq_nil in E. tauto.
Qed.
Lemma last_bytes_leaves : forall t, cty_ok t = true -> last_bytes t = nbytes (leaf_width (last (leaves t) (TInt 0))).
Proof.
  induction t as [w|w m|w|ts IH] using cty_ind'; intros Hok; try reflexivity.
  apply cty_ok_tup in Hok. destruct Hok as [Hne HF]. cbn [leaves]. change (last_bytes (TTup ts)) with (last_of ts).
  induction ts as [|t ts IHts]; [congruence|]. fcons IH H1 H2. fcons HF Ht Hts. cbn [flat_map].
  destruct ts as [|t' ts].
  - cbn [flat_map]. rewrite app_nil_r. apply H1; auto.
  - rewrite last_of_cons, IHts by (auto; discriminate). rewrite last_app_ne; [reflexivity|].
    fcons Hts Ho _h. cbn [flat_map]. destruct (leaves_good t' Ho) as [H _]. destruct (leaves t'); [congruence|discriminate].
Qed.
Lemma sampled_size : forall t, cty_ok t = true -> (leaf_bytes t - last_bytes t = words_size (removelast (leaves t)))%nat.
Proof.
  intros t Hok. rewrite leaf_bytes_leaves, last_bytes_leaves by auto. destruct (leaves_good t Hok) as [Hne _].
  rewrite (app_removelast_last (TInt 0) Hne) at 1. rewrite words_size_app. cbn [words_size fold_right]. lia.
Qed.

Lemma mixed_bytes_length : forall ts xs, length xs = length ts -> length (mixed_bytes ts xs) = words_size ts.
Proof.
  induction ts as [|t ts IH]; intros [|x xs] HL; try discriminate; [reflexivity|]. cbn [mixed_bytes words_size fold_right].
  rewrite app_length, le_encode_length, IH by (cbn [length] in HL; lia). reflexivity.
Qed.
Lemma mixed_bytes_ok : forall ts xs, bytes_ok (mixed_bytes ts xs).
Proof.
  induction ts as [|t ts IH]; intros [|x xs]; cbn [mixed_bytes]; try constructor.
  apply Forall_app. split; [apply le_encode_bytes|apply IH].
Qed.
Lemma mixed_bytes_short : forall ts xs, length xs = length (removelast ts) ->
  mixed_bytes ts xs = mixed_bytes (removelast ts) xs.
Proof.
  intros ts xs HL. destruct ts as [|t ts]; [reflexivity|].
  rewrite (app_removelast_last t (l := t :: ts)) at 1 by discriminate.
  rewrite <- (app_nil_r xs) at 1. rewrite mixed_bytes_app by auto. cbn [mixed_bytes]. apply app_nil_r.
Qed.
Lemma mixed_bytes_inj : forall ts xs ys, leafy ts -> below xs (word_bounds ts) -> below ys (word_bounds ts) ->
  mixed_bytes ts xs = mixed_bytes ts ys -> xs = ys.
Proof.
  intros ts xs ys HF. revert xs ys. induction HF as [|t ts [Hok Hl] _ IH]; intros xs ys Hx Hy HE;
    inversion Hx as [|x b xs' bs Hx0 Hxs]; inversion Hy as [|y b' ys' bs' Hy0 Hys]; subst; auto.
  cbn [mixed_bytes] in HE. apply app_eq_len in HE; [|rewrite !le_encode_length; reflexivity]. destruct HE as [H1 H2].
  f_equal; [|apply IH; auto]. apply (f_equal le_decode) in H1. rewrite !le_decode_encode in H1.
  rewrite <- width_bytes in H1 by (apply leaf_width_ok; auto). rewrite !N.mod_small in H1 by auto. exact H1.
Qed.
Lemma mixed_bytes_onto : forall ts o, leafy ts -> bytes_ok o -> length o = words_size ts ->
  exists xs, below xs (word_bounds ts) /\ mixed_bytes ts xs = o.
Proof.
  intros ts o HF. revert o. induction HF as [|t ts [Hok Hl] _ IH]; intros o Ho HL.
  - destruct o; [|discriminate]. exists []. split; [constructor|reflexivity].
  - cbn [words_size fold_right] in HL. fold (words_size ts) in HL. set (k := nbytes (leaf_width t)) in *.
    rewrite <- (firstn_skipn k o) in Ho. apply Forall_app in Ho. destruct Ho as [H1 H2].
    destruct (IH (skipn k o) H2) as (xs & Hx & HE); [rewrite skipn_length; lia|].
    assert (HK : length (firstn k o) = k) by (rewrite firstn_length; lia).
    exists (le_decode (firstn k o) :: xs). split.
    + constructor; auto. rewrite width_bytes by (apply leaf_width_ok; auto). fold k. rewrite <- HK at 2. apply le_decode_lt.
    + cbn [mixed_bytes]. fold k. rewrite HE. rewrite <- HK at 1. rewrite encode_decode by auto. apply firstn_skipn.
Qed.

Lemma NoDup_list_prod : forall A B (a : list A) (b : list B), NoDup a -> NoDup b -> NoDup (list_prod a b).
Proof.
  intros A B a b Ha Hb. induction Ha as [|x a Hx Ha IH]; [constructor|]. cbn [list_prod]. apply NoDup_append; auto.
  - apply FinFun.Injective_map_NoDup; auto. intros u v H. congruence.
  - intros [u v] H1 H2. apply in_map_iff in H1. destruct H1 as (w & Hw & _). injection Hw as <- <-.
    apply in_prod_iff in H2. tauto.
Qed.
Lemma NoDup_map_on : forall A B (f : A -> B) l, NoDup l -> (forall x y, In x l -> In y l -> f x = f y -> x = y) -> NoDup (map f l).
Proof.
  intros A B f l H. induction H as [|a l Ha Hl IH]; intros Hf; [constructor|]. cbn [map]. constructor.
  - intros Hi. apply in_map_iff in Hi. destruct Hi as (y & Hy & Hin). apply Ha.
    rewrite (Hf a y); auto; [left|right]; auto.
  - apply IH. intros x y Hx Hy. apply Hf; right; auto.
Qed.
Lemma count_map : forall A B (f : A -> B) (p : B -> bool) l, count p (map f l) = count (fun x => p (f x)) l.
Proof.
  intros A B f p l. unfold count. f_equal. induction l as [|a l IH]; [reflexivity|]. cbn [map filter].
  destruct (p (f a)); cbn [length]; rewrite IH; reflexivity.
Qed.

Section Split.
Variable T : cty.
Variable M : N.
Variable R : nat.
Hypothesis Hok : cty_ok T = true.
Hypothesis HM : M = 2 ^ 128.
Let need : nat := (16 + words_size (removelast (leaves T)))%nat.

Lemma seed_in : forall i, In i (seed_space M T) <-> fst i < M /\ below (snd i) (word_bounds (removelast (leaves T))).
Proof using.
  intros [r xs]. unfold seed_space. rewrite in_prod_iff, in_all_below, in_mixed. reflexivity.
Qed.
Lemma leafy_removelast : leafy (removelast (leaves T)).
Proof using Hok.
  destruct (leaves_good T Hok) as [Hne HF]. unfold leafy in *. rewrite (app_removelast_last (TInt 0) Hne) in HF.
  apply Forall_app in HF. tauto.
Qed.
Lemma below_length : forall xs bs, below xs bs -> length xs = length bs.
Proof using. intros xs bs H. eapply Forall2_length; eauto. Qed.
Lemma seed_bytes_short : forall i rest, In i (seed_space M T) ->
  seed_bytes T i rest = le_encode 16 (fst i) ++ mixed_bytes (removelast (leaves T)) (snd i) ++ rest.
Proof using.
  intros i rest Hi. apply seed_in in Hi. destruct Hi as [_ Hx]. unfold seed_bytes. rewrite mixed_bytes_short; auto.
  apply below_length in Hx. unfold word_bounds in Hx. rewrite map_length in Hx. auto.
Qed.
Lemma split_permutation :
  Permutation (map (fun q => seed_bytes T (fst q) (snd q)) (list_prod (seed_space M T) (tuples R 256))) (tuples (need + R) 256).
Proof using Hok HM.
  assert (Hlen : forall i, In i (seed_space M T) -> length (mixed_bytes (removelast (leaves T)) (snd i)) = words_size (removelast (leaves T))).
  { intros i Hi. apply seed_in in Hi. destruct Hi as [_ Hx]. apply mixed_bytes_length.
    apply below_length in Hx. unfold word_bounds in Hx. rewrite map_length in Hx. auto. }
  apply NoDup_Permutation.
  - apply NoDup_map_on.
    + apply NoDup_list_prod; [apply NoDup_list_prod; [apply all_below_NoDup|apply mixed_NoDup]|rewrite tuples_mixed; apply mixed_NoDup].
    + intros [i rest] [i' rest'] H1 H2 HE. rewrite in_prod_iff in H1, H2. destruct H1 as [Hi Hr], H2 as [Hi' Hr'].
      cbn [fst snd] in HE. rewrite !seed_bytes_short in HE by auto.
      apply app_eq_len in HE; [|rewrite !le_encode_length; reflexivity]. destruct HE as [E1 E2].
      apply app_eq_len in E2; [|rewrite !Hlen by auto; reflexivity]. destruct E2 as [E2 E3].
      apply seed_in in Hi, Hi'. destruct Hi as [Ha Hx], Hi' as [Ha' Hx']. f_equal; auto.
      destruct i as [r xs], i' as [r' xs']. cbn [fst snd] in *. f_equal.
      * apply (f_equal le_decode) in E1. rewrite !le_decode_encode in E1. change (256 ^ N.of_nat 16) with (2 ^ 128) in E1.
        rewrite <- HM in E1. rewrite !N.mod_small in E1 by auto. exact E1.
      * eapply mixed_bytes_inj; eauto. apply leafy_removelast.
  - rewrite tuples_mixed. apply mixed_NoDup.
  - intros o. rewrite in_map_iff, in_tuples. split.
    + intros ([i rest] & <- & Hin). rewrite in_prod_iff in Hin. destruct Hin as [Hi Hr]. cbn [fst snd].
      rewrite in_tuples in Hr. rewrite seed_bytes_short by auto. split.
      * rewrite !app_length, le_encode_length, Hlen by auto. unfold need. lia.
      * apply Forall_app. split; [apply le_encode_bytes|]. apply Forall_app. split; [apply mixed_bytes_ok|tauto].
    + intros [HL Ho]. set (k := words_size (removelast (leaves T))) in *.
      set (b := firstn 16 o). set (o' := skipn 16 o).
      assert (Hb : length b = 16%nat) by (unfold b, need in *; rewrite firstn_length; lia).
      assert (Hob : bytes_ok b /\ bytes_ok o').
      { unfold b, o'. rewrite <- (firstn_skipn 16 o) in Ho. apply Forall_app in Ho. exact Ho. }
      assert (Hl' : length o' = (k + R)%nat) by (unfold o', need in *; rewrite skipn_length; lia).
      destruct Hob as [Hob Ho'].
      assert (Hok' : bytes_ok (firstn k o') /\ bytes_ok (skipn k o')).
      { rewrite <- (firstn_skipn k o') in Ho'. apply Forall_app in Ho'. exact Ho'. }
      destruct (mixed_bytes_onto (removelast (leaves T)) (firstn k o') leafy_removelast (proj1 Hok')) as (xs & Hx & HE).
      { rewrite firstn_length. lia. }
      assert (Hin : In (le_decode b, xs) (seed_space M T)).
      { apply seed_in. cbn [fst snd]. split; auto. rewrite HM. pose proof (le_decode_lt b) as HD. rewrite Hb in HD. exact HD. }
      exists ((le_decode b, xs), skipn k o'). split.
      * cbn [fst snd]. rewrite seed_bytes_short by auto. cbn [fst snd]. rewrite HE, firstn_skipn.
        rewrite <- Hb at 1. rewrite encode_decode by auto. apply firstn_skipn.
      * rewrite in_prod_iff, in_tuples. split; auto. split; [rewrite skipn_length; lia|apply Hok'].
Qed.
Lemma count_split : forall p : bytes -> bool,
  count p (tuples (need + R) 256) =
  sumN (map (fun rest => count (fun i => p (seed_bytes T i rest)) (seed_space M T)) (tuples R 256)).
Proof using Hok HM.
  intros p. rewrite <- (count_permutation _ p _ _ split_permutation), count_map.
  rewrite count_list_prod. cbn [fst snd].
  rewrite (sumN_ext _ _ (fun i => sumN (map (fun rest => if p (seed_bytes T i rest) then 1 else 0) (tuples R 256))))
    by (intros i _; apply count_sum).
  rewrite (sum_swap _ _ (fun i rest => if p (seed_bytes T i rest) then 1 else 0)). apply sumN_ext. intros rest _.
  rewrite count_sum. reflexivity.
Qed.
End Split.

(** ** Sums of distances *)
Lemma dist_sums : forall A (f g : A -> N) l, dist (sumN (map f l)) (sumN (map g l)) <= sumN (map (fun x => dist (f x) (g x)) l).
Proof.
  intros A f g l. induction l as [|a l IH]; [reflexivity|]. cbn [map]. rewrite !sumN_cons.
  eapply N.le_trans; [apply dist_add|]. lia.
Qed.
Lemma tuples_length : forall k n, N.of_nat (length (tuples k n)) = n ^ N.of_nat k.
Proof.
  intros k n. rewrite tuples_mixed, mixed_length. induction k as [|k IH]; [reflexivity|]. cbn [repeat productN fold_right].
  fold (productN (repeat n k)). rewrite IH. replace (N.of_nat (S k)) with (N.succ (N.of_nat k)) by lia. rewrite N.pow_succ_r'. reflexivity.
Qed.
Lemma words_product : forall ts, leafy ts -> productN (map (fun l => 2 ^ leaf_width l) ts) = 256 ^ N.of_nat (words_size ts).
Proof.
  intros ts H. induction H as [|t ts [Hok Hl] _ IH]; [reflexivity|]. cbn [map productN fold_right words_size].
  fold (productN (map (fun l => 2 ^ leaf_width l) ts)) (words_size ts). rewrite IH, width_bytes by (apply leaf_width_ok; auto).
  rewrite <- N.pow_add_r. f_equal. lia.
Qed.

(** C78 for all contents of the bytes. *)
Lemma correction_distance : forall T second L own own' idx idx' beta beta' bT bT' inv inv' (test : res (list pvalue) -> bool),
  cty_ok T = true -> enough_bytes T L -> enough_bytes T (length own) -> enough_bytes T (length own') ->
  from_value T beta = Ok bT -> from_value T beta' = Ok bT' ->
  (idx < elements_per_block T)%nat -> (idx' < elements_per_block T)%nat ->
  2 ^ 129 * dist
    (count (fun other => test (seen T second own other idx beta inv)) (tuples L 256))
    (count (fun other => test (seen T second own' other idx' beta' inv')) (tuples L 256))
  <= type_bias T * 256 ^ N.of_nat L.
Proof.
  intros T second L own own' idx idx' beta beta' bT bT' inv inv' test Hok HL Ho Ho' HB HB' Hi Hi'.
  destruct (convert_bytes_ok T own Hok Ho) as (ea & HA & HLa & HWa).
  destruct (convert_bytes_ok T own' Hok Ho') as (ea' & HA' & HLa' & HWa').
  unfold enough_bytes in HL. unfold type_bias. destruct (is_direct T) eqn:Hd.
  - pose proof (direct_count T second L own own' idx idx' beta beta' inv inv' ea ea' bT bT' test
             Hok Hd HL HA HA' (conj HLa HWa) (conj HLa' HWa') HB HB' Hi Hi') as HE.
    unfold seen. rewrite HE. unfold dist. lia.
  - rewrite sampled_size in HL by auto. pose proof (sampled_epb T Hd) as He.
    set (k := words_size (removelast (leaves T))) in *.
    set (R := (L - (16 + k))%nat). remember (2 ^ 128) as M eqn:HM.
    replace L with (16 + k + R)%nat by (unfold R; lia). clearbody R. clear HL L.
    unfold k. rewrite !(count_split T M R Hok HM). fold k.
    change (2 ^ 129) with (2 ^ 128 * 2). rewrite <- HM.
    eapply N.le_trans; [apply N.mul_le_mono_l; apply dist_sums|].
    rewrite <- sumN_mul.
    eapply N.le_trans.
    { apply sumN_le with (g := fun _ => M * (256 ^ N.of_nat k * bias_cost (leaves T))). intros rest _.
      pose proof (sampled_count T second M own own' rest rest idx idx' beta beta' inv inv' ea ea' bT bT' test
           Hok Hd HM HA HA' (conj HLa HWa) (conj HLa' HWa') HB HB' ltac:(lia) ltac:(lia)) as HS.
      rewrite words_product in HS by (apply leafy_removelast; auto). fold k in HS.
      rewrite <- N.mul_assoc. apply N.mul_le_mono_l. unfold seen. exact HS. }
    rewrite sumN_const, tuples_length.
    assert (HP : 256 ^ N.of_nat (16 + k + R) = M * 256 ^ N.of_nat k * 256 ^ N.of_nat R).
    { rewrite HM. change (2 ^ 128) with (256 ^ 16). rewrite <- !N.pow_add_r. f_equal. lia. }
    rewrite HP. set (a := 256 ^ N.of_nat R). set (b := 256 ^ N.of_nat k). clearbody a b. clear. lia.
Qed.

(** ** Independent levels *)
Lemma count_choices : forall A (p : list A -> bool) l ls,
  count p (choices (l :: ls)) = sumN (map (fun x => count (fun w => p (x :: w)) (choices ls)) l).
Proof.
  intros A p l ls. rewrite count_sum. cbn [choices]. rewrite sumN_flat_map. apply sumN_ext. intros x _.
  rewrite map_map, count_sum. reflexivity.
Qed.
Lemma choices_length : forall A (l : list A) ls, N.of_nat (length (choices (l :: ls))) = N.of_nat (length l) * N.of_nat (length (choices ls)).
Proof.
  intros A l ls. rewrite <- (N.mul_1_r (N.of_nat (length (choices _)))), <- (sumN_const _ 1). cbn [choices].
  rewrite sumN_flat_map. rewrite (sumN_ext _ _ (fun _ => N.of_nat (length (choices ls)))); [rewrite sumN_const; lia|].
  intros x _. rewrite map_map, sumN_const. lia.
Qed.
Section Hybrid.
Variables A B : Type.
Variable S : nat -> list A.
Variables v v' : nat -> A -> B.
Variable c : nat -> N.
Variable D : N.
Fixpoint results (v : nat -> A -> B) (k : nat) (w : list A) : list B :=
  match w with [] => [] | x :: w' => v k x :: results v (Datatypes.S k) w' end.
Definition near (h : nat) : Prop := forall t : B -> bool,
  D * dist (count (fun x => t (v h x)) (S h)) (count (fun x => t (v' h x)) (S h)) <= c h * N.of_nat (length (S h)).
Lemma hybrid : forall n k, (forall h, (k <= h < k + n)%nat -> near h) -> forall test : list B -> bool,
  D * dist (count (fun w => test (results v k w)) (choices (map S (seq k n))))
           (count (fun w => test (results v' k w)) (choices (map S (seq k n))))
  <= sumN (map c (seq k n)) * N.of_nat (length (choices (map S (seq k n)))).
Proof using.
  induction n as [|n IH]; intros k Hn test.
  - cbn [seq map choices]. unfold count. cbn [filter results]. unfold dist. destruct (test []); cbn; lia.
  - cbn [seq map]. rewrite !count_choices, choices_length, sumN_cons. cbn [results].
    specialize (IH (Datatypes.S k) ltac:(intros h Hh; apply Hn; lia)).
    pose proof (Hn k ltac:(lia)) as Hk.
    set (Ss := choices (map S (seq (Datatypes.S k) n))) in *. set (Sk := S k) in *.
    set (mid := sumN (map (fun x => count (fun w => test (v k x :: results v' (Datatypes.S k) w)) Ss) Sk)).
    apply N.le_trans with (D * (dist (sumN (map (fun x => count (fun w => test (v k x :: results v (Datatypes.S k) w)) Ss) Sk)) mid
      + dist mid (sumN (map (fun x => count (fun w => test (v' k x :: results v' (Datatypes.S k) w)) Ss) Sk)))).
    { apply N.mul_le_mono_l. apply dist_triangle. }
    rewrite N.mul_add_distr_l, N.mul_add_distr_r, N.add_comm. apply N.add_le_mono.
    + assert (Hsw : forall u : nat -> A -> B, sumN (map (fun x => count (fun w => test (u k x :: results v' (Datatypes.S k) w)) Ss) Sk)
        = sumN (map (fun w => count (fun x => test (u k x :: results v' (Datatypes.S k) w)) Sk) Ss)).
      { intros u. rewrite (sumN_ext _ _ (fun x => sumN (map (fun w => if test (u k x :: results v' (Datatypes.S k) w) then 1 else 0) Ss)))
          by (intros x _; apply count_sum).
        rewrite (sum_swap _ _ (fun x w => if test (u k x :: results v' (Datatypes.S k) w) then 1 else 0)).
        apply sumN_ext. intros w _. rewrite count_sum. reflexivity. }
      unfold mid. rewrite !Hsw. eapply N.le_trans; [apply N.mul_le_mono_l; apply dist_sums|]. rewrite <- sumN_mul.
      eapply N.le_trans.
      { apply sumN_le with (g := fun _ => c k * N.of_nat (length Sk)). intros w _.
        apply (Hk (fun y => test (y :: results v' (Datatypes.S k) w))). }
      rewrite sumN_const. lia.
    + unfold mid. eapply N.le_trans; [apply N.mul_le_mono_l; apply dist_sums|]. rewrite <- sumN_mul.
      eapply N.le_trans.
      { apply sumN_le with (g := fun _ => sumN (map c (seq (Datatypes.S k) n)) * N.of_nat (length Ss)). intros x _.
        apply (IH (fun ys => test (v k x :: ys))). }
      rewrite sumN_const. lia.
Qed.
End Hybrid.
