(** The shape of generated keys, and key generation as constraints on one party's
    expansions given the other's. *)
From Coq Require Import List NArith ZArith Lia Bool ZifyBool ZifyNat ZifyN.
From Verif Require Import Base ListUtil ValueTypesModel ValueTypesSpec ValueTypesProofs
  ConvProofs BitsProofs TypeProofs DpfModel DpfTree DpfWf DpfGen DpfPoint DpfSpec ConvSurj DpfPrivacySpec DpfPrivacy.
Import ListNotations.
Ltac Zify.zify_post_hook ::= Z.div_mod_to_equations.
Open Scope N_scope.

Definition node_a (f : bool) (g : gstate) : node := if f then g_node1 g else g_node0 g.
Definition node_b (f : bool) (g : gstate) : node := if f then g_node0 g else g_node1 g.
Lemma mkg_nodes : forall f g, mkg f (node_a f g) (node_b f g) = g.
Proof. intros [] []; reflexivity. Qed.

Lemma with_bit_eta : forall y, with_bit (clear_lowest y) (lowest_bit y) = y.
Proof.
  intros y. rewrite lowest_bit_bit0. unfold with_bit, clear_lowest. apply N.bits_inj. intros i. rewrite N.lxor_spec, N.ldiff_spec.
  destruct (N.eq_dec i 0) as [->|Hi].
  - change (N.testbit 1 0) with true. destruct (N.testbit y 0); reflexivity.
  - assert (H1 : N.testbit 1 i = false) by (destruct i as [|[]]; try reflexivity; congruence).
    rewrite H1. cbn [negb]. rewrite andb_true_r.
    destruct (N.testbit y 0); [rewrite H1|rewrite N.bits_0]; apply xorb_false_r.
Qed.

(** One step of key generation determines the expansion of party B's seed. *)
Lemma generate_next_need : forall aes d f i alpha beta g g' cw, alpha < P128 -> g_bit0 g <> g_bit1 g ->
  generate_next aes d i alpha beta g = Ok (g', cw) ->
  let x := N.testbit alpha (N.of_nat (ld_last d - i)) in
  let a := node_a f g in
  lowest_bit (cw_seed cw) = false /\
  lowest_bit (fst (node_a f g')) = false /\ lowest_bit (fst (node_b f g')) = false /\
  hash aes kPrgKeyLeft (fst (node_b f g))
    = need_left (hash aes kPrgKeyLeft (fst a)) (snd a) x (corr_of cw) (fst (node_b f g')) /\
  hash aes kPrgKeyRight (fst (node_b f g))
    = need_right (hash aes kPrgKeyRight (fst a)) (snd a) x (corr_of cw) (fst (node_b f g')).
Proof.
  intros aes d f i alpha beta [s0 s1 t0 t1] g' cw Ha Ht H. cbn [g_bit0 g_bit1] in Ht. apply neq_negb in Ht. subst t0.
  unfold generate_next in H. bind_inv H. clear Hb. rewrite !prg_evaluate_hash in H.
  cbn [g_seed0 g_seed1 g_bit0 g_bit1 map at_or_ub nth_error bind] in H.
  assert (HB : Nat.ltb (ld_last d - i) 128 && N.testbit alpha (N.of_nat (ld_last d - i))
             = N.testbit alpha (N.of_nat (ld_last d - i))).
  { destruct (Nat.ltb_spec (ld_last d - i) 128); auto.
    cbn [andb]. symmetry. apply testbit_high; auto. lia. }
  rewrite HB in H. clear HB. cbv zeta. set (x := N.testbit alpha _) in *. clearbody x. inv H.
  unfold node_a, node_b, g_node0, g_node1, corr_of, need_left, need_right.
  cbn [fst snd g_seed0 g_seed1 g_bit0 g_bit1 cw_seed cw_left cw_right].
  set (l0 := hash aes kPrgKeyLeft s0). set (l1 := hash aes kPrgKeyLeft s1).
  set (r0 := hash aes kPrgKeyRight s0). set (r1 := hash aes kPrgKeyRight s1).
  assert (HX : forall p q, lowest_bit (N.lxor (clear_lowest p) (clear_lowest q)) = false)
    by (intros; rewrite lowest_bit_lxor, !lowest_bit_clear; reflexivity).
  assert (HX2 : forall p q r, lowest_bit (N.lxor (clear_lowest p) (N.lxor (clear_lowest q) (clear_lowest r))) = false)
    by (intros; rewrite !lowest_bit_lxor, !lowest_bit_clear; reflexivity).
  split; [destruct x; apply HX|].
  split; [destruct f, x, t1; cbn [fst negb]; auto using lowest_bit_clear|].
  split; [destruct f, x, t1; cbn [fst negb]; auto using lowest_bit_clear|].
  destruct f; cbn [fst snd]; fold l0 l1 r0 r1;
  [rewrite <- (with_bit_eta l0), <- (with_bit_eta r0)|rewrite <- (with_bit_eta l1), <- (with_bit_eta r1)].
  all: rewrite !with_bit_clear, !with_bit_lowest by apply lowest_bit_clear.
  all: clearbody l0 l1 r0 r1; destruct x, t1; cbn [negb fst snd].
  all: repeat match goal with
    | |- context [N.lxor (N.lxor ?p ?q) ?q] => replace (N.lxor (N.lxor p q) q) with p
         by (rewrite N.lxor_assoc, N.lxor_nilpotent, N.lxor_0_r; reflexivity)
    | |- context [N.lxor ?p (N.lxor ?q ?p)] => rewrite (lxor_cancel_r p q)
    | |- context [N.lxor ?p (N.lxor ?p ?q)] => rewrite (lxor_cancel_l p q)
    end.
  all: split; f_equal; destruct (lowest_bit l0), (lowest_bit l1), (lowest_bit r0), (lowest_bit r1); reflexivity.
Qed.

Lemma generate_loop_states : forall aes d n i alpha beta g g' cws,
  generate_loop aes d n i alpha beta g = Ok (g', cws) ->
  exists gs, gs 0%nat = g /\ gs n = g' /\
    forall j, (j < n)%nat -> exists cw, nth_error cws j = Some cw /\
      generate_next aes d (i + j) alpha beta (gs j) = Ok (gs (S j), cw).
Proof.
  induction n as [|n IH]; intros i alpha beta g g' cws H; cbn [generate_loop] in H.
  - inv H. exists (fun _ => g'). split; auto. split; auto. lia.
  - bind_inv H. destruct a as [g1 cw]. bind_inv H. destruct a as [g2 cws']. inv H.
    apply IH in Hb0. destruct Hb0 as (gs & H0 & Hn & Hs).
    exists (fun j => match j with O => g | S j' => gs j' end). split; auto. split; auto.
    intros [|j] Hj.
    + exists cw. rewrite Nat.add_0_r. cbn [nth_error]. rewrite H0. auto.
    + destruct (Hs j ltac:(lia)) as (c & Hc & HG). exists c. split; auto.
      replace (i + S j)%nat with (S i + j)%nat by lia. exact HG.
Qed.

(** The elements of a successful value correction determine each other. *)
Lemma solve_unique : forall T corrs ea eb idx bT (inv : bool), cty_ok T = true ->
  length corrs = elements_per_block T -> length ea = elements_per_block T -> length eb = elements_per_block T ->
  Forall (fun v => wt T v = true) ea -> Forall (fun v => wt T v = true) eb -> wt T bT = true ->
  (forall j a b, nth_error ea j = Some a -> nth_error eb j = Some b ->
      nth_error corrs j = Some
        (let delta := if Nat.eqb j idx then bT else vzero T in
         let c := vadd T (vadd T b delta) (vneg T a) in
         if inv then vneg T c else c)) ->
  eb = solve_second T corrs ea idx bT inv /\ ea = solve_first T corrs eb idx bT inv.
Proof.
  intros T corrs ea eb idx bT inv Hok HLc HLa HLb HWa HWb Hw H.
  assert (Hd : forall j, wt T (cdelta T idx bT j) = true) by (intros; apply cdelta_wt; auto).
  assert (Hc : forall j, (j < elements_per_block T)%nat ->
    csign T inv (nth j corrs (vzero T)) =
      vadd T (vadd T (nth j eb (vzero T)) (cdelta T idx bT j)) (vneg T (nth j ea (vzero T)))).
  { intros j Hj. specialize (H j (nth j ea (vzero T)) (nth j eb (vzero T))).
    rewrite (nth_error_nth' ea (vzero T)), (nth_error_nth' eb (vzero T)), (nth_error_nth' corrs (vzero T)) in H by lia.
    specialize (H eq_refl eq_refl). cbv zeta in H. fold (cdelta T idx bT j) in H.
    assert (nth j corrs (vzero T) = if inv then vneg T (vadd T (vadd T (nth j eb (vzero T)) (cdelta T idx bT j)) (vneg T (nth j ea (vzero T)))) else vadd T (vadd T (nth j eb (vzero T)) (cdelta T idx bT j)) (vneg T (nth j ea (vzero T)))) as -> by congruence.
    unfold csign. destruct inv; auto. apply vneg_neg; auto.
    apply vadd_wt; auto; [apply vadd_wt; auto; apply nth_wt; auto|apply vneg_wt; auto; apply nth_wt; auto]. }
  assert (HN : forall (l : list cval) (g : nat -> cval), length l = elements_per_block T ->
    (forall j, (j < elements_per_block T)%nat -> nth j l (vzero T) = g j) -> l = map g (seq 0 (elements_per_block T))).
  { intros l g HL HG. apply nth_ext with (d := vzero T) (d' := vzero T); [rewrite map_length, seq_length; auto|].
    intros j Hj. rewrite nth_map_seq by lia. apply HG. lia. }
  assert (Ha : forall j, wt T (nth j ea (vzero T)) = true) by (intros; apply nth_wt; auto).
  assert (Hb : forall j, wt T (nth j eb (vzero T)) = true) by (intros; apply nth_wt; auto).
  split; apply HN; auto; intros j Hj; rewrite Hc by auto;
    specialize (Ha j); specialize (Hb j); specialize (Hd j);
    set (a := nth j ea (vzero T)) in *; set (b := nth j eb (vzero T)) in *; set (e := cdelta T idx bT j) in *; clearbody a b e.
  - rewrite <- (vadd_assoc T (vadd T b e)) by auto using vadd_wt, vneg_wt.
    rewrite (vadd_neg_l T Hok) by auto. rewrite vadd_0_r by auto using vadd_wt.
    rewrite <- vadd_assoc by auto using vneg_wt. rewrite vadd_neg_r by auto. symmetry. apply vadd_0_r; auto.
  - rewrite (vneg_add T Hok) by auto using vadd_wt, vneg_wt. rewrite (vneg_neg T Hok) by auto.
    rewrite (vadd_assoc T (vadd T b e)) by auto using vadd_wt, vneg_wt.
    rewrite (vadd_neg_r T (vadd T b e)) by auto using vadd_wt. symmetry. apply vadd_0_l; auto.
Qed.
