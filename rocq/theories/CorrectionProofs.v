(** Value corrections as a function of the other party's random bytes. *)
From Coq Require Import List NArith ZArith Lia Bool FinFun Permutation ZifyBool ZifyNat ZifyN.
From Verif Require Import Base ListUtil ValueTypesModel ValueTypesSpec ValueTypesProofs
  ConvProofs ConvSurj SampleSpec SampleProofs SampleJoint SampleMixed CorrectionSpec DpfTree DpfPrivacy DpfShape.
Import ListNotations.
Ltac Zify.zify_post_hook ::= Z.div_mod_to_equations.
Open Scope N_scope.

(** ** Counting along an injection *)
Lemma count_permutation : forall A (p : A -> bool) l l', Permutation l l' -> count p l = count p l'.
Proof.
  intros A p l l' H. unfold count. f_equal. induction H; cbn [filter]; auto.
  - destruct (p x); cbn [length]; auto.
  - destruct (p x), (p y); reflexivity.
  - congruence.
Qed.
Lemma count_injection : forall A (l : list A) (f : A -> A) (p q : A -> bool), NoDup l ->
  (forall x, In x l -> In (f x) l) -> (forall x y, In x l -> In y l -> f x = f y -> x = y) ->
  (forall x, In x l -> q x = p (f x)) -> count q l = count p l.
Proof.
  intros A l f p q HN Hin Hinj HQ.
  assert (HP : Permutation (map f l) l).
  { apply NoDup_Permutation_bis.
    - assert (HG : forall l0, (forall x, In x l0 -> In x l) -> NoDup l0 -> NoDup (map f l0)).
      { intros l0 Hi H0. induction H0 as [|b l0 Hb Hl0 IH0]; [constructor|]. cbn [map]. constructor.
        - intros Hc. apply in_map_iff in Hc. destruct Hc as (c & Hc & Hcl).
          apply Hb. rewrite <- (Hinj c b); auto; apply Hi; [right; auto|left; auto].
        - apply IH0. intros x Hx. apply Hi. right; auto. }
      apply HG; auto.
    - rewrite map_length. auto.
    - intros y Hy. apply in_map_iff in Hy. destruct Hy as (x & <- & Hx). auto. }
  rewrite <- (count_permutation _ p _ _ HP). unfold count. f_equal.
  assert (HE : forall x, In x l -> q x = p (f x)) by auto. clear - HE.
  induction l as [|a l IH]; [reflexivity|]. cbn [map filter]. rewrite (HE a) by (left; auto).
  destruct (p (f a)); cbn [length]; rewrite IH; auto; intros; apply HE; right; auto.
Qed.

(** ** Matching the elements for two sets of arguments *)
Definition corr_elements (T : cty) (xa xb : list cval) (idx : nat) (bT : cval) (inv : bool) : list cval :=
  map (fun j => csign T inv (vadd T (vadd T (nth j xb (vzero T)) (cdelta T idx bT j)) (vneg T (nth j xa (vzero T)))))
      (seq 0 (elements_per_block T)).
Definition good (T : cty) (es : list cval) : Prop :=
  length es = elements_per_block T /\ Forall (fun v => wt T v = true) es.

Lemma corr_good : forall T xa xb idx bT inv, cty_ok T = true -> good T xa -> good T xb -> wt T bT = true ->
  good T (corr_elements T xa xb idx bT inv).
Proof.
  intros T xa xb idx bT inv Hok [HLa HWa] [HLb HWb] Hb. unfold corr_elements, good. rewrite map_length, seq_length.
  split; auto. apply Forall_forall. intros v Hv. apply in_map_iff in Hv. destruct Hv as (j & <- & _).
  apply csign_wt; auto. auto 10 using vadd_wt, vneg_wt, cdelta_wt, nth_wt.
Qed.
Lemma corr_code : forall T ba bb xa xb idx beta bT inv, cty_ok T = true -> good T xa -> good T xb ->
  from_value T beta = Ok bT -> wt T bT = true -> (idx < elements_per_block T)%nat ->
  convert_bytes T ba = Ok xa -> convert_bytes T bb = Ok xb ->
  compute_value_correction_for T ba bb idx beta inv = Ok (map (to_value T) (corr_elements T xa xb idx bT inv)).
Proof.
  intros T ba bb xa xb idx beta bT inv Hok Ha Hb HB Hw Hi HA HBb.
  pose proof (corr_good T xa xb idx bT inv Hok Ha Hb Hw) as [HLc HWc]. destruct Ha as [HLa HWa], Hb as [HLb HWb].
  unfold compute_value_correction_for. rewrite HB, HA, HBb. cbn [bind]. unfold at_or_ub.
  destruct (nth_error xb idx) as [old|] eqn:Eo; [|apply nth_error_None in Eo; lia]. cbn [bind]. f_equal. f_equal.
  apply (correction_nth T Hok) with (ea := xa); auto. intros j Hj. unfold corr_elements. rewrite nth_map_seq by auto.
  unfold csign. destruct inv; auto. symmetry. apply vneg_neg; auto.
  auto 10 using vadd_wt, vneg_wt, cdelta_wt, nth_wt.
Qed.
Lemma corr_nth : forall T xa xb idx bT inv, good T xa -> good T xb ->
  forall j a b, nth_error xa j = Some a -> nth_error xb j = Some b ->
    nth_error (corr_elements T xa xb idx bT inv) j = Some
        (let delta := if Nat.eqb j idx then bT else vzero T in
         let c := vadd T (vadd T b delta) (vneg T a) in
         if inv then vneg T c else c).
Proof.
  intros T xa xb idx bT inv [HLa HWa] [HLb HWb] j a b Ha Hb.
  assert (Hj : (j < elements_per_block T)%nat) by (rewrite <- HLa; apply nth_error_Some; congruence).
  unfold corr_elements. rewrite (nth_error_nth' _ (vzero T)) by (rewrite map_length, seq_length; auto).
  rewrite nth_map_seq by auto. rewrite (nth_error_nth _ _ (vzero T) Ha), (nth_error_nth _ _ (vzero T) Hb). reflexivity.
Qed.

Section Match.
Variable T : cty.
Hypothesis Hok : cty_ok T = true.
Variable second : bool.

Definition corr_with (own es : list cval) (idx : nat) (bT : cval) (inv : bool) : list cval :=
  if second then corr_elements T own es idx bT inv else corr_elements T es own idx bT inv.
Definition solve_with (corrs own : list cval) (idx : nat) (bT : cval) (inv : bool) : list cval :=
  if second then solve_second T corrs own idx bT inv else solve_first T corrs own idx bT inv.

Lemma corr_with_good : forall own es idx bT inv, good T own -> good T es -> wt T bT = true ->
  good T (corr_with own es idx bT inv).
Proof using Hok. intros. unfold corr_with. destruct second; apply corr_good; auto. Qed.
Lemma solve_with_good : forall corrs own idx bT inv, good T corrs -> good T own -> wt T bT = true ->
  good T (solve_with corrs own idx bT inv).
Proof using Hok.
  intros corrs own idx bT inv [H1 H2] [H3 H4] H5. unfold solve_with.
  destruct second; [apply solve_second_ok|apply solve_first_ok]; auto.
Qed.
Lemma solve_corr : forall own es idx bT inv, good T own -> good T es -> wt T bT = true ->
  solve_with (corr_with own es idx bT inv) own idx bT inv = es.
Proof using Hok.
  intros own es idx bT inv Ho He Hb. pose proof (corr_with_good own es idx bT inv Ho He Hb) as [HL HW].
  unfold solve_with, corr_with in *. destruct Ho as [HLo HWo], He as [HLe HWe]. destruct second.
  - destruct (solve_unique T _ own es idx bT inv Hok HL HLo HLe HWo HWe Hb) as [H _]; auto.
    apply corr_nth; split; auto.
  - destruct (solve_unique T _ es own idx bT inv Hok HL HLe HLo HWe HWo Hb) as [_ H]; auto.
    apply corr_nth; split; auto.
Qed.
Lemma corr_solve : forall own corrs idx bT inv, good T own -> good T corrs -> wt T bT = true ->
  corr_with own (solve_with corrs own idx bT inv) idx bT inv = corrs.
Proof using Hok.
  intros own corrs idx bT inv [HLo HWo] [HLc HWc] Hb.
  assert (HN : forall l g, length l = elements_per_block T ->
    (forall j, (j < elements_per_block T)%nat -> g j = nth j l (vzero T)) -> map g (seq 0 (elements_per_block T)) = l).
  { intros l g HL HG. apply nth_ext with (d := vzero T) (d' := vzero T); rewrite map_length, seq_length; auto.
    intros j Hj. rewrite nth_map_seq by lia. apply HG. lia. }
  unfold corr_with, corr_elements, solve_with. destruct second; apply HN; auto; intros j Hj;
    [unfold solve_second|unfold solve_first]; rewrite nth_map_seq by auto;
    rewrite <- (csign_sign T Hok inv (nth j corrs (vzero T))) at 2 by (apply nth_wt; auto);
    unfold csign at 1;
    set (s := csign T inv (nth j corrs (vzero T))); set (a := nth j own (vzero T)); set (e := cdelta T idx bT j);
    assert (Hs : wt T s = true) by (apply csign_wt, nth_wt; auto);
    assert (Ha : wt T a = true) by (apply nth_wt; auto);
    assert (He : wt T e = true) by (apply cdelta_wt; auto); clearbody s a e.
  - assert (HE : vadd T (vadd T (vadd T (vadd T s a) (vneg T e)) e) (vneg T a) = s).
    { rewrite <- (vadd_assoc T (vadd T s a)) by auto using vadd_wt, vneg_wt.
      rewrite (vadd_neg_l T Hok) by auto. rewrite vadd_0_r by auto using vadd_wt.
      rewrite <- vadd_assoc by auto using vneg_wt. rewrite vadd_neg_r by auto. apply vadd_0_r; auto. }
    rewrite HE. reflexivity.
  - assert (HE : vadd T (vadd T a e) (vneg T (vadd T (vadd T a e) (vneg T s))) = s).
    { assert (Hae : wt T (vadd T a e) = true) by auto using vadd_wt. set (x := vadd T a e) in *. clearbody x.
      rewrite (vneg_add T Hok) by auto using vneg_wt. rewrite (vneg_neg T Hok) by auto.
      rewrite vadd_assoc by auto using vneg_wt. rewrite vadd_neg_r by auto. apply vadd_0_l; auto. }
    rewrite HE. reflexivity.
Qed.

(** Elements that give the same corrections with the other arguments. *)
Variables own own' : list cval.
Variables idx idx' : nat.
Variables bT bT' : cval.
Variables inv inv' : bool.
Hypothesis Ho : good T own.
Hypothesis Ho' : good T own'.
Hypothesis Hb : wt T bT = true.
Hypothesis Hb' : wt T bT' = true.
Definition transfer (es : list cval) : list cval := solve_with (corr_with own es idx bT inv) own' idx' bT' inv'.
Lemma transfer_good : forall es, good T es -> good T (transfer es).
Proof using Hok Ho Ho' Hb Hb'. intros es He. apply solve_with_good; auto. apply corr_with_good; auto. Qed.
Lemma transfer_same : forall es, good T es ->
  corr_with own' (transfer es) idx' bT' inv' = corr_with own es idx bT inv.
Proof using Hok Ho Ho' Hb Hb'. intros es He. apply corr_solve; auto. apply corr_with_good; auto. Qed.
Lemma transfer_inj : forall es es', good T es -> good T es' -> transfer es = transfer es' -> es = es'.
Proof using Hok Ho Ho' Hb Hb'.
  intros es es' He He' H. rewrite <- (solve_corr own es idx bT inv), <- (solve_corr own es' idx bT inv) by auto.
  f_equal. rewrite <- (transfer_same es), <- (transfer_same es') by auto. rewrite H. reflexivity.
Qed.
End Match.

(** ** Types converted directly *)
Lemma tuples_bytes : forall L o, In o (tuples L 256) <-> length o = L /\ bytes_ok o.
Proof. intros. apply in_tuples. Qed.

Lemma direct_count : forall T (second : bool) L own own' idx idx' beta beta' (inv inv' : bool) ea ea' bT bT' (test : res (list pvalue) -> bool),
  cty_ok T = true -> is_direct T = true -> (elements_per_block T * leaf_bytes T <= L)%nat ->
  convert_bytes T own = Ok ea -> convert_bytes T own' = Ok ea' -> good T ea -> good T ea' ->
  from_value T beta = Ok bT -> from_value T beta' = Ok bT' ->
  (idx < elements_per_block T)%nat -> (idx' < elements_per_block T)%nat ->
  count (fun o => test (if second then compute_value_correction_for T own o idx beta inv
                        else compute_value_correction_for T o own idx beta inv)) (tuples L 256) =
  count (fun o => test (if second then compute_value_correction_for T own' o idx' beta' inv'
                        else compute_value_correction_for T o own' idx' beta' inv')) (tuples L 256).
Proof.
  intros T second L own own' idx idx' beta beta' inv inv' ea ea' bT bT' test Hok Hd HL HA HA' Hg Hg' HB HB' Hi Hi'.
  pose proof (from_value_wt _ _ _ Hok HB) as Hw. pose proof (from_value_wt _ _ _ Hok HB') as Hw'.
  assert (HC : forall o, In o (tuples L 256) -> exists es, convert_bytes T o = Ok es /\ good T es).
  { intros o Ho. apply tuples_bytes in Ho. destruct Ho as [HLo _].
    destruct (convert_bytes_ok T o Hok) as (es & He & H1 & H2); [unfold enough_bytes; rewrite Hd, HLo; exact HL|].
    exists es. split; auto. split; auto. }
  set (el := fun o => match convert_bytes T o with Ok es => es | _ => [] end).
  set (tr := transfer T second ea ea' idx idx' bT bT' inv inv').
  assert (Hel : forall o, In o (tuples L 256) -> convert_bytes T o = Ok (el o) /\ good T (el o)).
  { intros o Ho. destruct (HC o Ho) as (es & He & Hge). unfold el. rewrite He. auto. }
  assert (Htr : forall es, good T es -> good T (tr es)) by (intros; apply transfer_good; auto).
  assert (HLen : forall es o, good T es -> In o (tuples L 256) -> (length es * leaf_bytes T <= length o)%nat).
  { intros es o [H1 _] Ho. apply tuples_bytes in Ho. destruct Ho as [HLo _]. rewrite H1, HLo. exact HL. }
  assert (Hcode : forall own0 ea0 o es idx0 beta0 bT0 inv0, convert_bytes T own0 = Ok ea0 -> good T ea0 ->
    convert_bytes T o = Ok es -> good T es -> from_value T beta0 = Ok bT0 -> (idx0 < elements_per_block T)%nat ->
    (if second then compute_value_correction_for T own0 o idx0 beta0 inv0 else compute_value_correction_for T o own0 idx0 beta0 inv0)
    = Ok (map (to_value T) (corr_with T second ea0 es idx0 bT0 inv0))).
  { intros own0 ea0 o es idx0 beta0 bT0 inv0 H1 H2 H3 H4 H5 H6. pose proof (from_value_wt _ _ _ Hok H5) as H7.
    unfold corr_with. destruct second; apply corr_code; auto. }
  apply count_injection with (f := fun o => reencode T o (tr (el o))).
  - rewrite tuples_mixed. apply mixed_NoDup.
  - intros o Ho. destruct (Hel o Ho) as [_ Hge]. pose proof (Htr _ Hge) as Hgt.
    pose proof (HLen _ o Hgt Ho) as HLo. apply tuples_bytes in Ho. destruct Ho as [H1 H2]. apply tuples_bytes.
    destruct Hgt as [_ Hgt]. rewrite reencode_length by auto. split; auto. apply reencode_bytes_ok; auto.
  - intros x y Hx Hy HE. destruct (Hel x Hx) as [Hcx Hgx], (Hel y Hy) as [Hcy Hgy].
    pose proof (Htr _ Hgx) as [Hx1 Hx2]. pose proof (Htr _ Hgy) as [Hy1 Hy2].
    pose proof (convert_reencode T _ x Hok Hd Hx1 Hx2) as Ex. pose proof (convert_reencode T _ y Hok Hd Hy1 Hy2) as Ey.
    rewrite HE, Ey in Ex. injection Ex as Ex.
    assert (Hes : el x = el y) by (apply (transfer_inj T Hok second ea ea' idx idx' bT bT' inv inv' Hg Hg' Hw Hw'); auto).
    apply tuples_bytes in Hx, Hy. destruct Hx as [HLx HOx], Hy as [HLy HOy].
    destruct Hgx as [HLgx HWgx], Hgy as [HLgy HWgy].
    rewrite <- (reencode_same T (el x) x Hok Hd HOx Hcx), <- (reencode_same T (el y) y Hok Hd HOy Hcy).
    rewrite <- (reencode_twice T (tr (el x)) (el x) x), <- (reencode_twice T (tr (el y)) (el y) y) by (auto; congruence).
    rewrite HE, Hes. reflexivity.
  - intros o Ho. destruct (Hel o Ho) as [Hco Hgo]. f_equal.
    rewrite (Hcode _ _ _ _ _ _ _ _ HA Hg Hco Hgo HB Hi). pose proof (Htr _ Hgo) as Hgt.
    rewrite (Hcode _ ea' (reencode T o (tr (el o))) (tr (el o)) _ _ _ inv' HA' Hg' (convert_reencode T _ o Hok Hd (proj1 Hgt) (proj2 Hgt)) Hgt HB' Hi').
    f_equal. f_equal. symmetry. apply transfer_same; auto.
Qed.

(** ** Distance and tests *)
Lemma half_distance : forall A (f : A -> N) (b : N) (t : A -> bool) l,
  sumN (map f l) = N.of_nat (length l) * b ->
  2 * dist (sumN (map (fun x => if t x then f x else 0) l)) (count t l * b) <= sumN (map (fun x => dist (f x) b) l).
Proof.
  intros A f b t l HT.
  assert (HG : forall s : A -> bool, dist (sumN (map (fun x => if s x then f x else 0) l)) (count s l * b)
                 <= sumN (map (fun x => if s x then dist (f x) b else 0) l)).
  { intros s. clear HT. rewrite count_sum. induction l as [|a l IH]; [unfold dist; cbn; lia|].
    cbn [map]. rewrite !sumN_cons. destruct (s a).
    - rewrite N.mul_add_distr_r, N.mul_1_l. eapply N.le_trans; [apply dist_add|]. lia.
    - rewrite !N.add_0_l. exact IH. }
  pose proof (HG t) as H1. pose proof (HG (fun x => negb (t x))) as H2. clear HG.
  assert (HS : forall g : A -> N, sumN (map g l) = sumN (map (fun x => if t x then g x else 0) l) + sumN (map (fun x => if negb (t x) then g x else 0) l)).
  { intros g. rewrite <- sumN_plus. apply sumN_ext. intros x _. destruct (t x); cbn [negb]; lia. }
  rewrite (HS f) in HT. rewrite (HS (fun x => dist (f x) b)).
  assert (HN : N.of_nat (length l) = count t l + count (fun x => negb (t x)) l).
  { rewrite !count_sum. rewrite <- (N.mul_1_r (N.of_nat (length l))), <- (sumN_const _ 1 l), (HS (fun _ => 1)). reflexivity. }
  rewrite HN, N.mul_add_distr_r in HT.
  set (a1 := sumN (map (fun x => if t x then f x else 0) l)) in *.
  set (a2 := sumN (map (fun x => if negb (t x) then f x else 0) l)) in *.
  set (c1 := count t l * b) in *. set (c2 := count (fun x => negb (t x)) l * b) in *.
  set (d1 := sumN (map (fun x => if t x then dist (f x) b else 0) l)) in *.
  set (d2 := sumN (map (fun x => if negb (t x) then dist (f x) b else 0) l)) in *.
  clearbody a1 a2 c1 c2 d1 d2. unfold dist in *. lia.
Qed.

(** ** Types that are sampled *)
Definition leaf_of (t : cty) : leaf := (leaf_width t, leaf_modulus t).
Lemma leaf_of_fits : forall t, cty_ok t = true -> is_leaf t = true -> leaf_fits (leaf_of t).
Proof.
  intros [w|w m|ts|w] Hok Hl; try discriminate; unfold leaf_fits, leaf_of; cbn [fst snd leaf_width leaf_modulus].
  - pose proof (pow2_pos w). cbn [cty_ok] in Hok. split; [widths Hok; lia|lia].
  - apply cty_ok_mod in Hok. destruct Hok as (Hw & Hm). split; [widths Hw; lia|lia].
  - pose proof (pow2_pos w). cbn [cty_ok] in Hok. split; [widths Hok; lia|lia].
Qed.
Lemma leaf_width_ok : forall t, cty_ok t = true -> is_leaf t = true -> cwidth_ok (leaf_width t) = true.
Proof.
  intros [w|w m|ts|w] Hok Hl; try discriminate; auto. apply cty_ok_mod in Hok. tauto.
Qed.
Lemma ldiff_high : forall w r, w <= 128 -> r < 2 ^ 128 -> N.ldiff r (N.ones w) = r / 2 ^ w mod 2 ^ (128 - w) * 2 ^ w.
Proof.
  intros w r Hw Hr. rewrite N.ldiff_ones_r. rewrite N.shiftl_mul_pow2, N.shiftr_div_pow2. f_equal.
  symmetry. apply N.mod_small. apply N.div_lt_upper_bound; [apply N.pow_nonzero; lia|].
  rewrite <- N.pow_add_r. replace (w + (128 - w)) with 128 by lia. auto.
Qed.
Lemma leaf_false : forall t r rem, cty_ok t = true -> is_leaf t = true ->
  sample_and_update t false r rem = Ok (VNum (r mod leaf_modulus t), (r, rem)).
Proof.
  intros [w|w m|ts|w] r rem Hok Hl; try discriminate; cbn [sample_and_update leaf_modulus]; auto.
  rewrite (reduced w m Hok). reflexivity.
Qed.
Lemma leaf_true : forall t r x rem, cty_ok t = true -> is_leaf t = true -> r < 2 ^ 128 -> x < 2 ^ leaf_width t ->
  sample_and_update t true r (le_encode (nbytes (leaf_width t)) x ++ rem)
  = Ok (VNum (r mod leaf_modulus t),
        (r / leaf_modulus t mod 2 ^ (128 - leaf_width t) * 2 ^ leaf_width t + x, rem)).
Proof.
  intros t r x rem Hok Hl Hr Hx. pose proof (leaf_width_ok t Hok Hl) as Hw.
  pose proof (proj1 (leaf_of_fits t Hok Hl)) as H128. cbn [leaf_of fst] in H128.
  destruct (read_word (leaf_width t) x rem Hw Hx) as (H1 & H2 & H3).
  assert (HI : forall w, w <= 128 -> x < 2 ^ w ->
    N.lor (if w <? 128 then N.ldiff r (N.ones w) else 0) x = r / 2 ^ w mod 2 ^ (128 - w) * 2 ^ w + x).
  { intros w Hw' Hx'. destruct (N.ltb_spec w 128) as [Hlt|Hge].
    - rewrite ldiff_high by auto. apply lor_add. auto.
    - assert (w = 128) as -> by lia. rewrite N.sub_diag, N.pow_0_r, N.mod_1_r. reflexivity. }
  assert (HM : forall w q, w <= 128 -> x < 2 ^ w ->
    N.lor (if w <? 128 then w128 (N.shiftl q w) else 0) x = q mod 2 ^ (128 - w) * 2 ^ w + x).
  { intros w q Hw' Hx'. destruct (N.ltb_spec w 128) as [Hlt|Hge].
    - apply next_word; auto.
    - assert (w = 128) as -> by lia. rewrite N.sub_diag, N.pow_0_r, N.mod_1_r. reflexivity. }
  destruct t as [w|w m|ts|w]; try discriminate; cbn [sample_and_update leaf_modulus leaf_width] in *;
    rewrite H1; cbn [bind]; rewrite H2; cbn [bind]; rewrite H3; cbn [bind].
  - rewrite HI by auto. reflexivity.
  - rewrite HM by auto. rewrite (reduced w m Hok). reflexivity.
  - rewrite HI by auto. reflexivity.
Qed.

Lemma removelast_map : forall A B (f : A -> B) l, removelast (map f l) = map f (removelast l).
Proof. intros A B f l. induction l as [|a [|b l] IH]; auto. cbn [map removelast] in *. rewrite IH. reflexivity. Qed.

(** The block after all the words. *)
Fixpoint mixed_final (ls : list leaf) (r : N) (xs : list N) : N :=
  match ls, xs with
  | l :: ls', x :: xs' => mixed_final ls' ((r / snd l mod 2 ^ (128 - fst l)) * 2 ^ fst l + x) xs'
  | _, _ => r
  end.
Definition below (xs bs : list N) : Prop := Forall2 (fun x b => x < b) xs bs.
Definition leafy (ts : list cty) : Prop := Forall (fun t => cty_ok t = true /\ is_leaf t = true) ts.
Definition word_bounds (ts : list cty) : list N := map (fun t => 2 ^ leaf_width t) ts.

Lemma mixed_samples_app : forall l1 l2 r xs1 xs2, length xs1 = length l1 ->
  mixed_samples (l1 ++ l2) r (xs1 ++ xs2) = mixed_samples l1 r xs1 ++ mixed_samples l2 (mixed_final l1 r xs1) xs2.
Proof.
  induction l1 as [|l l1 IH]; intros l2 r [|x xs1] xs2 HL; try discriminate; [reflexivity|].
  cbn [app mixed_samples mixed_final]. f_equal. apply IH. cbn [length] in HL. lia.
Qed.
Lemma mixed_final_app : forall l1 l2 r xs1 xs2, length xs1 = length l1 ->
  mixed_final (l1 ++ l2) r (xs1 ++ xs2) = mixed_final l2 (mixed_final l1 r xs1) xs2.
Proof.
  induction l1 as [|l l1 IH]; intros l2 r [|x xs1] xs2 HL; try discriminate; [reflexivity|].
  cbn [app mixed_final]. apply IH. cbn [length] in HL. lia.
Qed.
Lemma mixed_bytes_app : forall t1 t2 xs1 xs2, length xs1 = length t1 ->
  mixed_bytes (t1 ++ t2) (xs1 ++ xs2) = mixed_bytes t1 xs1 ++ mixed_bytes t2 xs2.
Proof.
  induction t1 as [|t t1 IH]; intros t2 [|x xs1] xs2 HL; try discriminate; [reflexivity|].
  cbn [app mixed_bytes]. rewrite IH by (cbn [length] in HL; lia). rewrite app_assoc. reflexivity.
Qed.
Lemma next_block_lt : forall l r x, leaf_fits l -> x < 2 ^ fst l ->
  r / snd l mod 2 ^ (128 - fst l) * 2 ^ fst l + x < 2 ^ 128.
Proof.
  intros l r x Hfit Hx. rewrite (fits_P _ Hfit).
  pose proof (N.mod_lt (r / snd l) (2 ^ (128 - fst l)) ltac:(apply N.pow_nonzero; lia)) as H.
  clear - H Hx. set (a := 2 ^ (128 - fst l)) in *. set (b := 2 ^ fst l) in *.
  set (q := _ mod a) in *. clearbody a b q. nia.
Qed.
Lemma mixed_final_lt : forall ts r xs, leafy ts -> below xs (word_bounds ts) -> r < 2 ^ 128 ->
  mixed_final (map leaf_of ts) r xs < 2 ^ 128.
Proof.
  intros ts r xs HF. revert r xs. induction HF as [|t ts [Hok Hl] _ IH]; intros r xs Hx Hr;
    inversion Hx as [|x b xs' bs Hx0 Hxs]; subst; auto.
  cbn [map mixed_final]. apply IH; auto. apply next_block_lt; auto. apply leaf_of_fits; auto.
Qed.

(** The leaves of a type. *)
Lemma leaves_good : forall t, cty_ok t = true -> leaves t <> [] /\ leafy (leaves t).
Proof.
  induction t as [w|w m|w|ts IH] using cty_ind'; intros Hok; cbn [leaves].
  1-3: split; [discriminate|]; constructor; [split; auto|constructor].
  apply cty_ok_tup in Hok. destruct Hok as [Hne HF]. split.
  - destruct ts as [|t ts]; [congruence|]. fcons IH IHt IHts. fcons HF Ht Hts. cbn [flat_map].
    destruct (IHt Ht) as [H _]. destruct (leaves t); [congruence|discriminate].
  - clear Hne. induction ts as [|t ts IHl]; cbn [flat_map]; [constructor|]. fcons IH IHt IHts. fcons HF Ht Hts.
    apply Forall_app. split; [apply (IHt Ht)|apply IHl; auto].
Qed.
Lemma leafy_list : forall ts, Forall (fun t => cty_ok t = true) ts -> leafy (flat_map leaves ts).
Proof.
  intros ts H. induction H as [|t ts Ht _ IH]; cbn [flat_map]; [constructor|].
  apply Forall_app. split; auto. apply leaves_good; auto.
Qed.
Lemma below_app : forall xs a b, below xs (a ++ b) ->
  exists x1 x2, xs = x1 ++ x2 /\ below x1 a /\ below x2 b /\ length x1 = length a.
Proof.
  intros xs a b H. apply Forall2_app_inv_r in H. destruct H as (x1 & x2 & H1 & H2 & ->).
  exists x1, x2. split; auto. split; auto. split; auto. eapply Forall2_length; eauto.
Qed.

(** The numbers in a value. *)
Fixpoint numbers (v : cval) : list N := match v with VNum x => [x] | VTup vs => flat_map numbers vs end.

Lemma leaf_value : forall t r, cty_ok t = true -> is_leaf t = true -> wt t (VNum (r mod leaf_modulus t)) = true.
Proof.
  intros t r Hok Hl. pose proof (leaf_of_fits t Hok Hl) as [_ Hm]. cbn [leaf_of snd fst] in Hm.
  pose proof (N.mod_lt r (leaf_modulus t) ltac:(lia)) as H.
  destruct t; try discriminate; cbn [wt leaf_modulus] in *; apply N.ltb_lt; exact H.
Qed.

Lemma nested_true : forall t, cty_ok t = true -> forall xs r rem, below xs (word_bounds (leaves t)) -> r < 2 ^ 128 ->
  exists v, sample_and_update t true r (mixed_bytes (leaves t) xs ++ rem)
              = Ok (v, (mixed_final (map leaf_of (leaves t)) r xs, rem)) /\
    wt t v = true /\ numbers v = mixed_samples (map leaf_of (leaves t)) r xs.
Proof.
  assert (HLeaf : forall t, is_leaf t = true -> leaves t = [t] -> cty_ok t = true -> forall xs r rem,
    below xs (word_bounds (leaves t)) -> r < 2 ^ 128 ->
    exists v, sample_and_update t true r (mixed_bytes (leaves t) xs ++ rem)
              = Ok (v, (mixed_final (map leaf_of (leaves t)) r xs, rem)) /\
      wt t v = true /\ numbers v = mixed_samples (map leaf_of (leaves t)) r xs).
  { intros t Hl HE Hok xs r rem Hx Hr. rewrite HE in *. inversion Hx as [|x b xs' bs Hx0 Hxs]. inversion Hxs. subst.
    exists (VNum (r mod leaf_modulus t)). split; [|split; [apply leaf_value; auto|reflexivity]].
    cbn [mixed_bytes]. rewrite app_nil_r. rewrite leaf_true by auto. reflexivity. }
  induction t as [w|w m|w|ts IH] using cty_ind'; intros Hok; try (apply HLeaf; auto; fail).
  intros xs r rem Hx Hr. clear HLeaf. apply cty_ok_tup in Hok. destruct Hok as [_ HF]. cbn [leaves] in *.
  assert (HH : forall n c, exists vs, sample_list sample_and_update n true ts c r (mixed_bytes (flat_map leaves ts) xs ++ rem)
      = Ok (vs, (mixed_final (map leaf_of (flat_map leaves ts)) r xs, rem)) /\ all2 wt ts vs = true /\
      flat_map numbers vs = mixed_samples (map leaf_of (flat_map leaves ts)) r xs).
  { revert xs r Hx Hr. induction ts as [|t ts IHts]; intros xs r Hx Hr n c.
    - cbn [flat_map] in *. inversion Hx. subst. exists []. auto.
    - fcons IH IHh IHt. fcons HF Hokh Hokt. cbn [flat_map] in *. unfold word_bounds in Hx. rewrite map_app in Hx.
      apply below_app in Hx. destruct Hx as (x1 & x2 & -> & H1 & H2 & HL). rewrite map_length in HL.
      rewrite map_app, mixed_bytes_app, mixed_samples_app, mixed_final_app, <- app_assoc by (rewrite ?map_length; auto).
      destruct (IHh Hokh x1 r (mixed_bytes (flat_map leaves ts) x2 ++ rem) H1 Hr) as (v & HS & Hw & HN).
      cbn [sample_list orb]. rewrite HS. cbn [bind].
      assert (Hr' : mixed_final (map leaf_of (leaves t)) r x1 < 2 ^ 128)
        by (apply mixed_final_lt; auto; apply leaves_good; auto).
      destruct (IHts IHt Hokt x2 _ H2 Hr' n (S c)) as (vs & HSs & Hws & HNs). rewrite HSs. cbn [bind].
      exists (v :: vs). split; [reflexivity|]. cbn [all2 flat_map]. rewrite Hw, Hws, HN, HNs. auto. }
  destruct (HH (length ts) 0%nat) as (vs & HS & Hw & HN). exists (VTup vs). cbn [sample_and_update].
  rewrite HS. cbn [bind wt numbers]. auto.
Qed.

Lemma nested_false : forall t, cty_ok t = true -> forall xs r rem, below xs (word_bounds (removelast (leaves t))) -> r < 2 ^ 128 ->
  exists v st, sample_and_update t false r (mixed_bytes (leaves t) xs ++ rem) = Ok (v, st) /\
    wt t v = true /\ numbers v = mixed_samples (map leaf_of (leaves t)) r (xs ++ [0]).
Proof.
  assert (HLeaf : forall t, is_leaf t = true -> leaves t = [t] -> cty_ok t = true -> forall xs r rem,
    below xs (word_bounds (removelast (leaves t))) -> r < 2 ^ 128 ->
    exists v st, sample_and_update t false r (mixed_bytes (leaves t) xs ++ rem) = Ok (v, st) /\
      wt t v = true /\ numbers v = mixed_samples (map leaf_of (leaves t)) r (xs ++ [0])).
  { intros t Hl HE Hok xs r rem Hx Hr. rewrite HE in *. inversion Hx. subst.
    exists (VNum (r mod leaf_modulus t)). eexists. rewrite leaf_false by auto. split; [reflexivity|].
    split; [apply leaf_value; auto|reflexivity]. }
  induction t as [w|w m|w|ts IH] using cty_ind'; intros Hok; try (apply HLeaf; auto; fail).
  intros xs r rem Hx Hr. clear HLeaf. apply cty_ok_tup in Hok. destruct Hok as [Hne HF]. cbn [leaves] in *.
  assert (HH : forall n c, (n = c + length ts)%nat -> exists vs st,
      sample_list sample_and_update n false ts c r (mixed_bytes (flat_map leaves ts) xs ++ rem) = Ok (vs, st) /\
      all2 wt ts vs = true /\ flat_map numbers vs = mixed_samples (map leaf_of (flat_map leaves ts)) r (xs ++ [0])).
  { revert xs r Hx Hr. induction ts as [|t ts IHts]; intros xs r Hx Hr n c Hn; [congruence|].
    fcons IH IHh IHt. fcons HF Hokh Hokt. cbn [length] in Hn. cbn [sample_list orb].
    destruct ts as [|t' ts].
    - cbn [flat_map] in *. rewrite app_nil_r in *.
      replace (S c <? n)%nat with false by (symmetry; apply Nat.ltb_ge; cbn [length] in Hn; lia).
      destruct (IHh Hokh xs r rem Hx Hr) as (v & st & HS & Hw & HN). rewrite HS. destruct st as [b rm]. cbn [bind].
      exists [v], (b, rm). split; [reflexivity|]. cbn [all2 flat_map]. rewrite Hw, HN, app_nil_r. auto.
    - replace (S c <? n)%nat with true by (symmetry; apply Nat.ltb_lt; cbn [length] in Hn; lia).
      assert (Hne' : flat_map leaves (t' :: ts) <> []).
      { fcons Hokt Ho1 Ho2. cbn [flat_map]. destruct (leaves_good t' Ho1) as [H _]. destruct (leaves t'); [congruence|discriminate]. }
      remember (t' :: ts) as tl eqn:Etl. assert (Htl : tl <> []) by (subst; discriminate).
      cbn [flat_map] in *. rewrite removelast_app in Hx by auto. unfold word_bounds in Hx. rewrite map_app in Hx.
      apply below_app in Hx. destruct Hx as (x1 & x2 & -> & H1 & H2 & HL). rewrite map_length in HL.
      rewrite <- !app_assoc. rewrite map_app, mixed_bytes_app, mixed_samples_app, <- app_assoc by (rewrite ?map_length; auto).
      destruct (nested_true t Hokh x1 r (mixed_bytes (flat_map leaves tl) x2 ++ rem) H1 Hr) as (v & HS & Hw & HN).
      rewrite HS. cbn [bind].
      assert (Hr' : mixed_final (map leaf_of (leaves t)) r x1 < 2 ^ 128)
        by (apply mixed_final_lt; auto; apply leaves_good; auto).
      destruct (IHts IHt Htl Hokt x2 _ H2 Hr' n (S c) ltac:(lia)) as (vs & st & HSs & Hws & HNs).
      rewrite HSs. cbn [bind]. exists (v :: vs), st. split; [destruct st; reflexivity|].
      cbn [all2 flat_map]. rewrite Hw, Hws, HN, HNs. auto. }
  destruct (HH (length ts) 0%nat eq_refl) as (vs & st & HS & Hw & HN). exists (VTup vs), st. cbn [sample_and_update].
  rewrite HS. cbn [bind wt numbers]. destruct st. auto.
Qed.

(** The value with given numbers. *)
Section BuildList.
  Variable build : cty -> list N -> cval * list N.
  Fixpoint build_list (ts : list cty) (vs : list N) : list cval * list N :=
    match ts with
    | [] => ([], vs)
    | t :: ts' => let (v, r) := build t vs in let (us, r') := build_list ts' r in (v :: us, r')
    end.
End BuildList.
Fixpoint build (t : cty) (vs : list N) : cval * list N :=
  match t with
  | TTup ts => let (us, r) := build_list build ts vs in (VTup us, r)
  | _ => (VNum (hd 0 vs), tl vs)
  end.
Definition mod_bounds (ts : list cty) : list N := moduli_of (map leaf_of ts).
Lemma mod_bounds_app : forall a b, mod_bounds (a ++ b) = mod_bounds a ++ mod_bounds b.
Proof. intros. unfold mod_bounds, moduli_of. rewrite !map_app. reflexivity. Qed.

Lemma build_spec : forall t vs rest, cty_ok t = true -> below vs (mod_bounds (leaves t)) ->
  exists v, build t (vs ++ rest) = (v, rest) /\ wt t v = true /\ numbers v = vs.
Proof.
  induction t as [w|w m|w|ts IH] using cty_ind'; intros vs rest Hok Hv.
  1-3: cbn [leaves] in Hv; inversion Hv as [|x b xs' bs Hx0 Hxs]; inversion Hxs; subst;
    exists (VNum x); cbn [app build hd tl numbers wt]; split; [reflexivity|]; split; [|reflexivity];
    cbn [leaf_of snd leaf_modulus] in Hx0; apply N.ltb_lt; exact Hx0.
  apply cty_ok_tup in Hok. destruct Hok as [_ HF]. cbn [leaves] in Hv.
  assert (HH : exists us, build_list build ts (vs ++ rest) = (us, rest) /\ all2 wt ts us = true /\ flat_map numbers us = vs).
  { revert vs Hv. induction ts as [|t ts IHts]; intros vs Hv.
    - inversion Hv. exists []. auto.
    - fcons IH IHh IHt. fcons HF Hokh Hokt. cbn [flat_map] in Hv. rewrite mod_bounds_app in Hv.
      apply below_app in Hv. destruct Hv as (x1 & x2 & -> & H1 & H2 & _). rewrite <- app_assoc.
      destruct (IHh x1 (x2 ++ rest) Hokh H1) as (v & HB & Hw & HN).
      destruct (IHts IHt Hokt x2 H2) as (us & HBs & Hws & HNs).
      exists (v :: us). cbn [build_list]. rewrite HB, HBs. split; [reflexivity|]. cbn [all2 flat_map]. rewrite Hw, Hws, HN, HNs. auto. }
  destruct HH as (us & HB & Hw & HN). exists (VTup us). cbn [build]. rewrite HB. auto.
Qed.
Lemma build_back : forall t v rest, cty_ok t = true -> wt t v = true ->
  below (numbers v) (mod_bounds (leaves t)) /\ build t (numbers v ++ rest) = (v, rest).
Proof.
  induction t as [w|w m|w|ts IH] using cty_ind'; intros v rest Hok Hw.
  1-3: destruct v as [x|]; [|discriminate]; cbn [wt] in Hw; apply N.ltb_lt in Hw; cbn [numbers app build hd tl]; split; [|reflexivity];
    cbn [leaves mod_bounds moduli_of map leaf_of snd leaf_modulus]; constructor; [exact Hw|constructor].
  apply cty_ok_tup in Hok. destruct Hok as [_ HF]. apply wt_tup_inv in Hw. destruct Hw as (us & -> & Hw). cbn [leaves numbers build].
  assert (HH : below (flat_map numbers us) (mod_bounds (flat_map leaves ts)) /\
               build_list build ts (flat_map numbers us ++ rest) = (us, rest)).
  { revert us Hw. induction ts as [|t ts IHts]; intros [|u us] Hw; try discriminate.
    - split; [constructor|reflexivity].
    - cbn [all2] in Hw. apply andb_true_iff in Hw. destruct Hw as [Hu Hus].
      fcons IH IHh IHt. fcons HF Hokh Hokt. cbn [flat_map]. rewrite mod_bounds_app, <- app_assoc.
      destruct (IHh u (flat_map numbers us ++ rest) Hokh Hu) as [H1 H2]. destruct (IHts IHt Hokt us Hus) as [H3 H4].
      split; [apply Forall2_app; auto|]. cbn [build_list]. rewrite H2, H4. reflexivity. }
  destruct HH as [H1 H2]. rewrite H2. auto.
Qed.

Lemma in_seed_space : forall M t i, In i (seed_space M t) ->
  fst i < M /\ Forall2 (fun x b => x < b) (snd i) (map (fun l => 2 ^ leaf_width l) (removelast (leaves t))).
Proof.
  intros M t [r xs] Hi. unfold seed_space in Hi. rewrite in_prod_iff in Hi. destruct Hi as [Hr Hx].
  rewrite in_all_below in Hr. rewrite in_mixed in Hx. auto.
Qed.
Lemma mixed_samples_in : forall ls r xs, Forall leaf_fits ls -> length xs = length ls ->
  In (mixed_samples ls r xs) (mixed_tuples (moduli_of ls)).
Proof.
  intros ls r xs HF. revert r xs. induction HF as [|l ls [_ Hl] _ IH]; intros r [|x xs] HL; try discriminate.
  - left. reflexivity.
  - cbn [mixed_samples moduli_of map]. apply in_mixed. constructor; [apply N.mod_lt; lia|].
    apply in_mixed. apply IH. cbn [length] in HL. lia.
Qed.
Lemma mixed_samples_last : forall ls r xs, length xs = length ls ->
  mixed_samples ls r (removelast xs ++ [0]) = mixed_samples ls r xs.
Proof.
  induction ls as [|l ls IH]; intros r xs HL; [reflexivity|].
  destruct xs as [|x [|y xs]]; cbn [length] in HL; [lia| |].
  - destruct ls as [|l' ls]; [|cbn [length] in HL; lia]. reflexivity.
  - change (removelast (x :: y :: xs)) with (x :: removelast (y :: xs)). cbn [app mixed_samples].
    f_equal. apply IH. cbn [length]. lia.
Qed.

Section Sampled.
Variable T : cty.
Hypothesis Hok : cty_ok T = true.
Hypothesis Hdir : is_direct T = false.
Definition tleaves : list leaf := map leaf_of (leaves T).
Definition mkval (vs : list N) : cval := fst (build T vs).

Lemma tleaves_fit : Forall leaf_fits tleaves.
Proof using Hok.
  destruct (leaves_good T Hok) as [_ HF]. unfold tleaves. rewrite Forall_map. eapply Forall_impl; [|exact HF].
  intros t [H1 H2]. apply leaf_of_fits; auto.
Qed.
Lemma sampled_epb : elements_per_block T = 1%nat.
Proof using Hdir. unfold elements_per_block. rewrite Hdir. reflexivity. Qed.
Lemma mkval_numbers : forall v, wt T v = true -> mkval (numbers v) = v.
Proof using Hok.
  intros v Hw. destruct (build_back T v [] Hok Hw) as [_ H]. unfold mkval. rewrite app_nil_r in H. rewrite H. reflexivity.
Qed.
Lemma numbers_mkval : forall vs, In vs (mixed_tuples (moduli_of tleaves)) -> wt T (mkval vs) = true /\ numbers (mkval vs) = vs.
Proof using Hok.
  intros vs Hv. apply in_mixed in Hv. destruct (build_spec T vs [] Hok Hv) as (v & HB & Hw & HN).
  unfold mkval. rewrite app_nil_r in HB. rewrite HB. auto.
Qed.

Lemma sampled_code : forall M i rest, M = 2 ^ 128 -> In i (seed_space M T) ->
  convert_bytes T (seed_bytes T i rest) = Ok [mkval (mixed_samples tleaves (fst i) (snd i ++ [0]))].
Proof using Hok Hdir.
  intros M [r xs] rest HM Hi. apply in_seed_space in Hi. unfold seed_bytes. cbn [fst snd] in *.
  destruct Hi as [Hr Hx]. rewrite HM in Hr. clear M HM.
  unfold convert_bytes, from_bytes. rewrite Hdir.
  pose proof (first_word r (mixed_bytes (leaves T) xs ++ rest) Hr) as HF.
  destruct (substr (le_encode 16 r ++ mixed_bytes (leaves T) xs ++ rest) 0 16); try discriminate.
  cbn [bind] in *. rewrite HF. cbn [bind].
  rewrite substr_from_ok by (rewrite app_length, le_encode_length; lia).
  rewrite skipn_app_exact by apply le_encode_length. cbn [bind].
  destruct (nested_false T Hok xs r rest Hx Hr) as (v & st & HS & Hw & HN). rewrite HS. cbn [bind].
  unfold tleaves. rewrite <- HN, mkval_numbers by auto. destruct st. reflexivity.
Qed.
Lemma mkval_good : forall vs, In vs (mixed_tuples (moduli_of tleaves)) -> good T [mkval vs].
Proof using Hok Hdir.
  intros vs Hv. split; [rewrite sampled_epb; reflexivity|]. constructor; [|constructor]. apply numbers_mkval. auto.
Qed.
Lemma good_mkval : forall es, good T es -> exists vs, es = [mkval vs] /\ In vs (mixed_tuples (moduli_of tleaves)).
Proof using Hok Hdir.
  intros es [HL HW]. rewrite sampled_epb in HL. destruct es as [|u [|u' es]]; try discriminate. inv HW.
  exists (numbers u). rewrite mkval_numbers by auto. split; auto. apply in_mixed.
  exact (proj1 (build_back T u [] Hok H1)).
Qed.
Lemma mkval_inj : forall vs vs', In vs (mixed_tuples (moduli_of tleaves)) -> In vs' (mixed_tuples (moduli_of tleaves)) ->
  mkval vs = mkval vs' -> vs = vs'.
Proof using Hok.
  intros vs vs' Hv Hv' HE. rewrite <- (proj2 (numbers_mkval vs Hv)), HE. apply numbers_mkval. auto.
Qed.
End Sampled.

(** ** The samples determine a partition of the random bytes *)
Lemma same_list_eq : forall a b, same_list a b = true <-> a = b.
Proof.
  induction a as [|x a IH]; intros [|y b]; cbn [same_list]; try (split; [discriminate|discriminate]); [tauto|].
  rewrite andb_true_iff, IH. split; [intros [H1 ->]; f_equal; lia|]. intros E. injection E as -> ->. split; auto. lia.
Qed.
Lemma pick_one : forall (h : list N -> N) v l, NoDup l -> In v l ->
  sumN (map (fun u => if same_list v u then h u else 0) l) = h v.
Proof.
  intros h v l HN. induction HN as [|a l Ha HN IH]; intros Hin; [destruct Hin|]. cbn [map]. rewrite sumN_cons.
  destruct (same_list v a) eqn:E.
  - apply same_list_eq in E. subst a.
    rewrite (sumN_ext _ _ (fun _ => 0)); [rewrite sumN_const; lia|].
    intros u Hu. destruct (same_list v u) eqn:E; auto. apply same_list_eq in E. subst u. contradiction.
  - destruct Hin as [->|Hin].
    + assert (same_list v v = true) by (apply same_list_eq; auto). congruence.
    + rewrite IH by auto. lia.
Qed.
Lemma sum_swap : forall A B (f : A -> B -> N) la lb,
  sumN (map (fun a => sumN (map (f a) lb)) la) = sumN (map (fun b => sumN (map (fun a => f a b) la)) lb).
Proof.
  intros A B f la lb. induction la as [|a la IH]; cbn [map].
  - rewrite (sumN_ext _ _ (fun _ => 0)); [rewrite sumN_const; cbn; lia|]. reflexivity.
  - rewrite sumN_cons, IH, <- sumN_plus. apply sumN_ext. intros b _. cbn [map]. rewrite sumN_cons. reflexivity.
Qed.
Lemma samples_partition : forall ls M (g : list N -> bool), Forall leaf_fits ls ->
  count (fun i => g (mixed_samples ls (fst i) (snd i))) (list_prod (all_below M) (mixed_tuples (widths_of ls)))
  = sumN (map (fun vs => if g vs then mtotal ls M vs else 0) (mixed_tuples (moduli_of ls))).
Proof.
  intros ls M g HF. rewrite count_list_prod. cbn [fst snd].
  transitivity (sumN (map (fun vs => sumN (map (fun r => if g vs then mways ls vs r else 0) (all_below M))) (mixed_tuples (moduli_of ls)))).
  - rewrite sum_swap. apply sumN_ext. intros r _. rewrite count_sum.
    transitivity (sumN (map (fun vs => sumN (map (fun xs => if same_list (mixed_samples ls r xs) vs then (if g vs then 1 else 0) else 0) (mixed_tuples (widths_of ls)))) (mixed_tuples (moduli_of ls)))).
    + rewrite sum_swap. apply sumN_ext. intros xs Hxs.
      rewrite (pick_one (fun vs => if g vs then 1 else 0)); auto; [apply mixed_NoDup|].
      apply mixed_samples_in; auto. apply in_mixed in Hxs. apply Forall2_length in Hxs. unfold widths_of in Hxs. rewrite map_length in Hxs. auto.
    + apply sumN_ext. intros vs _. unfold mways. destruct (g vs).
      * rewrite count_sum. reflexivity.
      * rewrite (sumN_ext _ _ (fun _ => 0)); [rewrite sumN_const; lia|]. intros xs _. destruct (same_list _ _); reflexivity.
  - apply sumN_ext. intros vs _. destruct (g vs); [reflexivity|]. rewrite sumN_const. lia.
Qed.
Lemma samples_total : forall ls M, Forall leaf_fits ls ->
  sumN (map (mtotal ls M) (mixed_tuples (moduli_of ls))) = M * productN (widths_of ls).
Proof.
  intros ls M HF. pose proof (samples_partition ls M (fun _ => true) HF) as H. cbn beta iota in H.
  transitivity (count (fun _ : N * list N => true) (list_prod (all_below M) (mixed_tuples (widths_of ls)))).
  { rewrite H. apply sumN_ext. reflexivity. }
  rewrite count_list_prod. rewrite (sumN_ext _ _ (fun _ => productN (widths_of ls))); [rewrite sumN_const, all_below_length; lia|].
  intros r _. rewrite count_sum, sumN_const, mixed_length. lia.
Qed.
Lemma productN_pos : forall l, Forall (fun x => 0 < x) l -> 0 < productN l.
Proof. intros l H. induction H as [|x l Hx _ IH]; [reflexivity|]. cbn [productN fold_right]. fold (productN l). nia. Qed.

(** A test on the corrections cannot tell the arguments apart by more than the bound. *)
Lemma samples_test : forall ls M (g g' : list N -> bool), M = 2 ^ 128 -> Forall leaf_fits ls ->
  count g (mixed_tuples (moduli_of ls)) = count g' (mixed_tuples (moduli_of ls)) ->
  let p := fun h : list N -> bool => count (fun i => h (mixed_samples ls (fst i) (snd i))) (list_prod (all_below M) (mixed_tuples (widths_of ls))) in
  2 * dist (p g) (p g') <= productN (widths_of ls) * mixed_cost ls.
Proof.
  intros ls M g g' HM HF Hg p. pose proof (mixed_distance ls HF) as HD. rewrite <- HM in HD.
  set (K := productN (moduli_of ls)) in *.
  assert (HK : 0 < K).
  { apply productN_pos. unfold moduli_of. rewrite Forall_map. eapply Forall_impl; [|exact HF]. intros l [_ H]. lia. }
  assert (HH : forall h, 2 * dist (K * p h) (count h (mixed_tuples (moduli_of ls)) * (M * productN (widths_of ls))) <= mdist ls M).
  { intros h. unfold p. rewrite samples_partition by auto. rewrite <- sumN_mul.
    rewrite (sumN_ext _ _ (fun vs => if h vs then K * mtotal ls M vs else 0)) by (intros vs _; destruct (h vs); lia).
    apply half_distance. rewrite sumN_mul, samples_total by auto. rewrite mixed_length. reflexivity. }
  pose proof (HH g) as H1. pose proof (HH g') as H2. rewrite Hg in H1. clear HH. clearbody p.
  apply (N.mul_le_mono_pos_l _ _ K HK).
  set (u := count g' _ * _) in *. set (d := mdist ls M) in *. clearbody u d.
  replace (K * (2 * dist (p g) (p g'))) with (2 * dist (K * p g) (K * p g')) by (rewrite dist_mul; lia).
  pose proof (dist_triangle (K * p g) u (K * p g')) as HT.
  assert (HS : dist u (K * p g') = dist (K * p g') u) by (unfold dist; lia). rewrite HS in HT.
  replace (K * (productN (widths_of ls) * mixed_cost ls)) with (K * productN (widths_of ls) * mixed_cost ls) by lia.
  lia.
Qed.

Lemma cost_leaves : forall ts, Forall (fun t => cty_ok t = true /\ is_leaf t = true) ts ->
  mixed_cost (map leaf_of ts) = bias_cost ts.
Proof.
  intros ts HF. induction HF as [|t ts [H1 H2] _ IH]; [reflexivity|]. cbn [map mixed_cost leaf_of fst snd].
  destruct t as [w|w m|ts'|w]; try discriminate; cbn [leaf_modulus leaf_width bias_cost].
  - rewrite N.eqb_refl. exact IH.
  - apply cty_ok_mod in H1. destruct (N.eqb_spec m (2 ^ w)) as [E|E]; [lia|].
    unfold moduli_of. cbn [map leaf_of snd leaf_modulus]. rewrite map_map. reflexivity.
  - rewrite N.eqb_refl. exact IH.
Qed.

Lemma sampled_count : forall T (second : bool) M own own' rest rest' idx idx' beta beta' (inv inv' : bool) ea ea' bT bT' (test : res (list pvalue) -> bool),
  cty_ok T = true -> is_direct T = false -> M = 2 ^ 128 ->
  convert_bytes T own = Ok ea -> convert_bytes T own' = Ok ea' -> good T ea -> good T ea' ->
  from_value T beta = Ok bT -> from_value T beta' = Ok bT' -> idx = 0%nat -> idx' = 0%nat ->
  2 * dist
    (count (fun i => test (if second then compute_value_correction_for T own (seed_bytes T i rest) idx beta inv
                          else compute_value_correction_for T (seed_bytes T i rest) own idx beta inv)) (seed_space M T))
    (count (fun i => test (if second then compute_value_correction_for T own' (seed_bytes T i rest') idx' beta' inv'
                          else compute_value_correction_for T (seed_bytes T i rest') own' idx' beta' inv')) (seed_space M T))
  <= productN (map (fun l => 2 ^ leaf_width l) (removelast (leaves T))) * bias_cost (leaves T).
Proof.
  intros T second M own own' rest rest' idx idx' beta beta' inv inv' ea ea' bT bT' test Hok Hd HM HA HA' Hg Hg' HB HB' Hi Hi'.
  pose proof (from_value_wt _ _ _ Hok HB) as Hw. pose proof (from_value_wt _ _ _ Hok HB') as Hw'.
  pose proof (sampled_epb T Hd) as He. pose proof (leaves_good T Hok) as [Hne HFl].
  set (ls := tleaves T). pose proof (tleaves_fit T Hok) as HF. fold ls in HF.
  set (G := fun ea bT idx inv vs => test (Ok (map (to_value T) (corr_with T second ea [mkval T vs] idx bT inv)))).
  set (Wn := 2 ^ leaf_width (last (leaves T) T)). assert (HWn : 0 < Wn) by apply pow2_pos.
  assert (HWl : widths_of ls = map (fun l => 2 ^ leaf_width l) (removelast (leaves T)) ++ [Wn]).
  { unfold ls, tleaves, widths_of. rewrite map_map. cbn [leaf_of fst].
    rewrite (app_removelast_last T Hne) at 1. rewrite map_app. reflexivity. }
  set (Ws := map (fun l => 2 ^ leaf_width l) (removelast (leaves T))) in *.
  assert (HC : forall own0 ea0 rest0 idx0 beta0 bT0 inv0, convert_bytes T own0 = Ok ea0 -> good T ea0 ->
     from_value T beta0 = Ok bT0 -> idx0 = 0%nat ->
     Wn * count (fun i => test (if second then compute_value_correction_for T own0 (seed_bytes T i rest0) idx0 beta0 inv0
                          else compute_value_correction_for T (seed_bytes T i rest0) own0 idx0 beta0 inv0)) (seed_space M T)
     = count (fun i => G ea0 bT0 idx0 inv0 (mixed_samples ls (fst i) (snd i))) (list_prod (all_below M) (mixed_tuples (widths_of ls)))).
  { intros own0 ea0 rest0 idx0 beta0 bT0 inv0 H1 H2 H3 H4. pose proof (from_value_wt _ _ _ Hok H3) as H5.
    rewrite (count_ext _ _ (fun i => G ea0 bT0 idx0 inv0 (mixed_samples ls (fst i) (snd i ++ [0])))).
    2:{ intros i Hin. pose proof (sampled_code T Hok Hd M i rest0 HM Hin) as HS. fold ls in HS.
        assert (Hmk : good T [mkval T (mixed_samples ls (fst i) (snd i ++ [0]))]).
        { apply (mkval_good T Hok Hd). apply mixed_samples_in; auto.
          apply in_seed_space in Hin. destruct Hin as [_ Hin]. apply Forall2_length in Hin.
          apply (f_equal (@length N)) in HWl. unfold widths_of in HWl. rewrite app_length, map_length in HWl.
          rewrite app_length, Hin. fold Ws. fold ls. cbn [length] in *. exact (eq_sym HWl). }
        unfold G. f_equal. unfold corr_with. destruct second; apply corr_code; auto; lia. }
    unfold seed_space. fold Ws. rewrite !count_list_prod, <- sumN_mul. apply sumN_ext. intros r _. cbn [fst snd].
    rewrite HWl. rewrite <- (count_mixed_last Ws Wn (fun xs => G ea0 bT0 idx0 inv0 (mixed_samples ls r (xs ++ [0])))).
    apply count_ext. intros xs Hxs. f_equal. apply mixed_samples_last.
    apply in_mixed in Hxs. rewrite <- HWl in Hxs. apply Forall2_length in Hxs. unfold widths_of in Hxs. rewrite map_length in Hxs. auto. }
  apply (N.mul_le_mono_pos_l _ _ Wn HWn).
  set (c1 := count _ (seed_space M T)). set (c2 := count _ (seed_space M T)).
  replace (Wn * (2 * dist c1 c2)) with (2 * dist (Wn * c1) (Wn * c2)) by (rewrite dist_mul; lia).
  unfold c1, c2. rewrite (HC _ _ _ _ _ _ inv HA Hg HB Hi), (HC _ _ _ _ _ _ inv' HA' Hg' HB' Hi').
  replace (Wn * (productN Ws * bias_cost (leaves T))) with (productN (widths_of ls) * mixed_cost ls).
  2:{ unfold ls at 2, tleaves. rewrite cost_leaves by auto. rewrite HWl.
      assert (HP : forall l x, productN (l ++ [x]) = x * productN l).
      { clear. intros l x. induction l as [|a l IH]; [unfold productN; cbn [app fold_right]; lia|].
        cbn [app productN fold_right]. fold (productN (l ++ [x])) (productN l). rewrite IH. lia. }
      rewrite HP. lia. }
  apply samples_test; auto.
  set (tr := transfer T second ea ea' idx idx' bT bT' inv inv').
  assert (Htr : forall vs, In vs (mixed_tuples (moduli_of ls)) -> exists us, tr [mkval T vs] = [mkval T us] /\ In us (mixed_tuples (moduli_of ls))).
  { intros vs Hv. apply (good_mkval T Hok Hd). apply transfer_good; auto. apply (mkval_good T Hok Hd); auto. }
  set (un := numbers).
  assert (Hun : forall vs, In vs (mixed_tuples (moduli_of ls)) -> un (mkval T vs) = vs).
  { intros vs Hv. apply numbers_mkval; auto. }
  apply count_injection with (f := fun vs => match tr [mkval T vs] with [v] => un v | _ => [] end).
  - apply mixed_NoDup.
  - intros vs Hv. destruct (Htr vs Hv) as (us & -> & Hu). rewrite Hun; auto.
  - intros vs vs' Hv Hv' HE. destruct (Htr vs Hv) as (us & Eu & Hu), (Htr vs' Hv') as (us' & Eu' & Hu').
    rewrite Eu, Eu', !Hun in HE by auto. subst us'.
    assert (E : [mkval T vs] = [mkval T vs']).
    { apply (transfer_inj T Hok second ea ea' idx idx' bT bT' inv inv' Hg Hg' Hw Hw'); try (apply (mkval_good T Hok Hd); auto).
      fold tr. congruence. }
    apply (mkval_inj T Hok); auto. congruence.
  - intros vs Hv. destruct (Htr vs Hv) as (us & Eu & Hu). rewrite Eu, Hun by auto. unfold G. f_equal. f_equal. f_equal.
    rewrite <- Eu. symmetry. apply transfer_same; auto. apply (mkval_good T Hok Hd); auto.
Qed.
