(** Proofs about the experiment program (ExperimentModel.v). *)
From Coq Require Import List NArith ZArith QArith Qround Lia Lqa Bool Sorted ZifyBool ZifyNat ZifyN.
From Verif Require Import Base ListUtil ValueTypesModel ValueTypesSpec ValueTypesProofs ConvProofs TypeProofs DpfModel DpfWf DpfSpec
  DpfCreate DpfFacts PropertiesDpf PropertiesDpfApi ExperimentModel.
Import ListNotations.
Open Scope N_scope.

(** ** Sets and prefixes *)

Lemma in_set_insert : forall x s y, In y (set_insert x s) <-> y = x \/ In y s.
Proof.
  induction s as [|z s IH]; intros y; cbn [set_insert].
  - cbn. intuition.
  - destruct (x <? z) eqn:E1; [cbn; intuition|]. destruct (x =? z) eqn:E2.
    + apply N.eqb_eq in E2. subst. cbn. intuition.
    + cbn. rewrite IH. intuition.
Qed.
Lemma set_insert_sorted : forall x s, StronglySorted N.lt s -> StronglySorted N.lt (set_insert x s).
Proof.
  induction s as [|z s IH]; intros H; cbn [set_insert].
  - repeat constructor.
  - inversion H; subst. destruct (x <? z) eqn:E1.
    + constructor; auto. apply N.ltb_lt in E1. constructor; auto. eapply Forall_impl; [|eassumption]. cbn. lia.
    + destruct (x =? z) eqn:E2; auto. constructor; auto.
      apply Forall_forall. intros y Hy. apply in_set_insert in Hy. apply N.ltb_ge in E1. apply N.eqb_neq in E2.
      rewrite Forall_forall in H3. destruct Hy as [->|Hy]; [lia|auto].
Qed.
Lemma set_insert_length : forall x s, (length (set_insert x s) <= S (length s))%nat.
Proof.
  induction s as [|z s IH]; cbn [set_insert]; [cbn; lia|]. destruct (x <? z); [cbn; lia|]. destruct (x =? z); cbn [length]; lia.
Qed.

Lemma fold_insert : forall (g : N -> N) l s, StronglySorted N.lt s ->
  let r := fold_left (fun s x => set_insert (g x) s) l s in
  StronglySorted N.lt r /\ (length r <= length s + length l)%nat /\
  forall y, In y r <-> In y s \/ exists x, In x l /\ y = g x.
Proof.
  intros g. induction l as [|x l IH]; intros s Hs; cbn [fold_left].
  - cbn zeta. split; [auto|]. split; [cbn; lia|]. intros y. split; [auto|]. intros [H|(x & [] & _)]; auto.
  - destruct (IH (set_insert (g x) s) (set_insert_sorted _ _ Hs)) as (H1 & H2 & H3). cbn zeta in *.
    split; [auto|]. split; [pose proof (set_insert_length (g x) s); cbn [length]; lia|].
    intros y. rewrite H3, in_set_insert. split.
    + intros [[->|H]|(z & Hz & ->)]; [right; exists x; cbn; auto|auto|right; exists z; cbn; auto].
    + intros [H|(z & [->|Hz] & ->)]; [auto|auto|right; exists z; auto].
Qed.
Lemma shorter_spec : forall l, StronglySorted N.lt (shorter l) /\ (length (shorter l) <= length l)%nat /\
  forall y, In y (shorter l) <-> exists x, In x l /\ y = x / 2.
Proof.
  intros l. unfold shorter.
  destruct (fold_insert (fun x => N.shiftr x 1) l [] ltac:(constructor)) as (H1 & H2 & H3).
  split; [exact H1|]. split; [exact H2|]. intros y. rewrite H3. split.
  - intros [[]|(x & Hx & ->)]. exists x. split; auto. rewrite N.shiftr_div_pow2. reflexivity.
  - intros (x & Hx & ->). right. exists x. split; auto. rewrite N.shiftr_div_pow2. reflexivity.
Qed.

Lemma nth_set_nth : forall A (l : list A) i j a b, (i < length l)%nat ->
  nth j (set_nth l i a) b = if Nat.eqb j i then a else nth j l b.
Proof.
  induction l as [|x l IH]; intros i j a b H; cbn in H; [lia|].
  destruct i, j; cbn [set_nth nth Nat.eqb]; auto. apply IH. lia.
Qed.
Lemma length_set_nth : forall A (l : list A) i a, length (set_nth l i a) = length l.
Proof. induction l as [|x l IH]; intros [|i] a; cbn [set_nth length]; auto. Qed.

Lemma prefixes_loop_spec : forall n r, (S n < length r)%nat ->
  let R := prefixes_loop n r in
  length R = length r /\ (forall j, (n < j)%nat -> nth j R [] = nth j r []) /\ nth 0 R [] = nth 0 r [] /\
  forall j, (1 <= j <= n)%nat -> nth j R [] = shorter (nth (S j) R []).
Proof.
  induction n as [|n IH]; intros r Hr; cbn [prefixes_loop].
  - cbn zeta. repeat split; auto. intros; lia.
  - set (r' := set_nth r (S n) (shorter (nth (S (S n)) r []))).
    assert (Hl : length r' = length r) by apply length_set_nth.
    destruct (IH r' ltac:(lia)) as (H1 & H2 & H3 & H4). cbn zeta in *.
    assert (Hn : forall j, nth j r' [] = if Nat.eqb j (S n) then shorter (nth (S (S n)) r []) else nth j r []).
    { intros j. apply nth_set_nth. lia. }
    split; [lia|]. split; [|split].
    + intros j Hj. rewrite H2, Hn by lia. destruct (Nat.eqb_spec j (S n)); [lia|auto].
    + rewrite H3, Hn. reflexivity.
    + intros j Hj. destruct (Nat.eq_dec j (S n)) as [->|].
      * rewrite !H2, !Hn by lia. rewrite Nat.eqb_refl. destruct (Nat.eqb_spec (S (S n)) (S n)); [lia|]. reflexivity.
      * apply H4. lia.
Qed.

Lemma last_nth : forall A (l : list A) a, last l a = nth (length l - 1) l a.
Proof.
  induction l as [|x l IH]; intros a; [reflexivity|]. destruct l as [|y l]; [reflexivity|].
  transitivity (last (y :: l) a); [reflexivity|]. rewrite IH. cbn [length].
  replace (S (S (length l)) - 1)%nat with (S (S (length l) - 1)) by lia. reflexivity.
Qed.

Lemma compute_prefixes_spec : forall l ld R, (0 <= ld)%Z -> StronglySorted N.lt l -> compute_prefixes l ld = Ok R ->
  length R = S (Z.to_nat ld) /\ ((0 < ld)%Z -> nth 0 R [] = []) /\ last R [] = l /\
  forall i, (i <= Z.to_nat ld)%nat -> (1 <= i)%nat \/ ld = 0%Z ->
    StronglySorted N.lt (nth i R []) /\ (length (nth i R []) <= length l)%nat /\
    forall y, In y (nth i R []) <-> exists x, In x l /\ y = x / 2 ^ (Z.to_N ld - N.of_nat i).
Proof.
  intros l ld R H0 Hs H. unfold compute_prefixes in H. destruct (ld =? 2 ^ 31 - 1)%Z; [discriminate|]. cbv zeta in H.
  assert (HR : R = prefixes_loop (Z.to_nat ld - 1) (set_nth (repeat [] (S (Z.to_nat ld))) (Z.to_nat ld) l)) by congruence.
  clear H. subst R.
  set (n := Z.to_nat ld). set (r := set_nth (repeat [] (S n)) n l).
  assert (Hl : length r = S n) by (unfold r; rewrite length_set_nth; apply repeat_length).
  assert (Hn : forall j, nth j r [] = if Nat.eqb j n then l else []).
  { intros j. unfold r. rewrite nth_set_nth by (rewrite repeat_length; lia).
    destruct (Nat.eqb j n); auto. apply nth_repeat. }
  assert (HX : let R := prefixes_loop (n - 1) r in
    length R = length r /\ nth n R [] = l /\ ((0 < n)%nat -> nth 0 R [] = []) /\
    forall j, (1 <= j < n)%nat -> nth j R [] = shorter (nth (S j) R [])).
  { destruct n as [|[|n']].
    - cbn zeta. cbn [Nat.sub prefixes_loop]. split; [auto|]. split; [rewrite Hn; auto|]. split; intros; lia.
    - cbn zeta. cbn [Nat.sub prefixes_loop]. split; [auto|]. split; [rewrite Hn; auto|]. split; [intros; rewrite Hn; auto|intros; lia].
    - replace (S (S n') - 1)%nat with (S n') by lia.
      destruct (prefixes_loop_spec (S n') r ltac:(lia)) as (P1 & P2 & P3 & P4). cbn zeta in *.
      split; [auto|]. split; [rewrite P2, Hn, Nat.eqb_refl by lia; auto|]. split; [intros _; rewrite P3, Hn; auto|].
      intros j Hj. apply P4. lia. }
  cbn zeta in HX. destruct HX as (E1 & E2 & E3 & E4). set (R := prefixes_loop (n - 1) r) in *.
  split; [etransitivity; [exact E1|exact Hl]|]. split; [intros; apply E3; unfold n; lia|]. split.
  { rewrite last_nth, E1, Hl. replace (S n - 1)%nat with n by lia. exact E2. }
  assert (HB : forall k i, (k + i = n)%nat -> (1 <= i)%nat \/ n = 0%nat ->
     StronglySorted N.lt (nth i R []) /\ (length (nth i R []) <= length l)%nat /\
     forall y, In y (nth i R []) <-> exists x, In x l /\ y = x / 2 ^ N.of_nat k).
  { induction k as [|k IH]; intros i Hi Hi1.
    - assert (i = n) by lia. subst i. rewrite E2. split; [auto|]. split; [lia|]. intros y. change (2 ^ N.of_nat 0) with 1. split.
      + intros Hy. exists y. rewrite N.div_1_r. auto.
      + intros (x & Hx & ->). rewrite N.div_1_r. auto.
    - destruct (IH (S i) ltac:(lia) ltac:(lia)) as (I1 & I2 & I3). rewrite (E4 i) by lia.
      destruct (shorter_spec (nth (S i) R [])) as (S1 & S2 & S3). split; [auto|]. split; [lia|].
      intros y. rewrite S3. replace (N.of_nat (S k)) with (N.of_nat k + 1) by lia. split.
      + intros (z & Hz & ->). apply I3 in Hz. destruct Hz as (x & Hx & ->). exists x. split; auto.
        rewrite N.pow_add_r, N.div_div; [reflexivity| |discriminate]. apply N.pow_nonzero. discriminate.
      + intros (x & Hx & ->). exists (x / 2 ^ N.of_nat k). split; [apply I3; exists x; auto|].
        rewrite N.pow_add_r, N.div_div; [reflexivity| |discriminate]. apply N.pow_nonzero. discriminate. }
  intros i Hi Hi1. replace (Z.to_N ld - N.of_nat i) with (N.of_nat (n - i)) by (unfold n; lia).
  apply HB; [lia|]. unfold n. lia.
Qed.

Lemma read_fold : forall lines s r, StronglySorted N.lt s ->
  foldM (fun s line => match line with Some x :: _ => Ok (set_insert x s) | _ => Err INVALID_ARGUMENT end)
    lines s = Ok r ->
  StronglySorted N.lt r /\ (length r <= length s + length lines)%nat /\
  Forall (fun line : list (option N) => exists x rest, line = Some x :: rest) lines /\
  forall y, In y r <-> In y s \/ exists rest, In (Some y :: rest) lines.
Proof.
  induction lines as [|line lines IH]; intros s r Hs H; cbn [foldM] in H.
  - inv H. split; [auto|]. split; [cbn; lia|]. split; [constructor|]. intros y. split; auto. intros [H|(rest & [])]; auto.
  - bind_inv H. destruct line as [|[x|] rest]; inv Hb.
    destruct (IH _ _ (set_insert_sorted x s Hs) H) as (H1 & H2 & H3 & H4).
    split; [auto|]. split; [pose proof (set_insert_length x s); cbn [length]; lia|]. split; [constructor; eauto|].
    intros y. rewrite H4, in_set_insert. split.
    + intros [[->|Hy]|(re & Hy)]; [right; exists rest; cbn; auto|auto|right; exists re; cbn; auto].
    + intros [Hy|(re & [Hy|Hy])]; [auto|inv Hy; auto|right; exists re; auto].
Qed.
Lemma read_spec : forall lines ok s, read_unique_values lines ok = Ok s ->
  StronglySorted N.lt s /\ (length s <= length lines)%nat /\ forall y, In y s <-> exists rest, In (Some y :: rest) lines.
Proof.
  intros lines ok s H. unfold read_unique_values in H. bind_inv H. bind_inv H. inv H.
  destruct (read_fold lines [] s ltac:(constructor) Hb) as (H1 & H2 & _ & H4).
  split; [auto|]. split; [cbn in H2; auto|]. intros y. rewrite H4. split; [intros [[]|H]; auto|auto].
Qed.
Lemma read_accepts : forall lines, Forall (fun line : list (option N) => exists x rest, line = Some x :: rest) lines ->
  exists s, read_unique_values lines true = Ok s.
Proof.
  intros lines H. unfold read_unique_values.
  assert (HX : forall s, exists r, foldM (fun s line => match line with Some x :: _ => Ok (set_insert x s) | _ => Err INVALID_ARGUMENT end)
    lines s = Ok r).
  { induction H as [|line lines (x & rest & ->) H IH]; intros s; cbn [foldM]; [eauto|]. cbn [bind]. apply IH. }
  destruct (HX []) as (r & ->). cbn. eauto.
Qed.

(** The first column of the file. *)
Definition bucket (lines : list (list (option N))) (x : N) : Prop := exists rest, In (Some x :: rest) lines.

Lemma validate_ld : forall f, validate_flags f = Ok tt -> (0 <= fl_ld f)%Z.
Proof. intros f H. unfold validate_flags in H. bind_inv H. apply check_ok in Hb. lia. Qed.

Lemma main_prefixes_spec : forall f lines ok prefixes, fl_input f = true ->
  main_prefixes f lines ok = Ok prefixes ->
  length prefixes = S (Z.to_nat (fl_ld f)) /\ ((0 < fl_ld f)%Z -> nth 0 prefixes [] = []) /\
  last prefixes [] = nth (Z.to_nat (fl_ld f)) prefixes [] /\
  (length (last prefixes []) <= length lines)%nat /\
  forall i, (i <= Z.to_nat (fl_ld f))%nat -> (1 <= i)%nat \/ fl_ld f = 0%Z ->
    StronglySorted N.lt (nth i prefixes []) /\ (length (nth i prefixes []) <= length (last prefixes []))%nat /\
    forall y, In y (nth i prefixes []) <-> exists x, bucket lines x /\ y = x / 2 ^ (Z.to_N (fl_ld f) - N.of_nat i).
Proof.
  intros f lines ok prefixes Hi H. unfold main_prefixes in H. bind_inv H. destruct a. rewrite Hi in H. bind_inv H. rename a into s.
  pose proof (validate_ld _ Hb) as H0. destruct (read_spec _ _ _ Hb0) as (R1 & R2 & R3).
  destruct (compute_prefixes_spec _ _ _ H0 R1 H) as (C1 & C2 & C3 & C4).
  split; [auto|]. split; [auto|]. split.
  { rewrite last_nth, C1. f_equal. lia. }
  rewrite C3. split; [auto|]. intros i Hi1 Hi2. destruct (C4 i Hi1 Hi2) as (D1 & D2 & D3). split; [auto|]. split; [auto|].
  intros y. rewrite D3. unfold bucket. split; intros (x & Hx & ->); exists x; split; auto; apply R3; auto.
Qed.

(** ** Levels *)

Lemma bind_ok : forall A B (r : res A) (k : A -> res B) b, bind r k = Ok b -> exists a, r = Ok a /\ k a = Ok b.
Proof. intros A B r k b H. bind_inv H. eauto. Qed.

Section Levels.
Variable rnd : Q -> Q.
Variable log2 : Z -> Q.
Variables (prefixes : list (list N)) (n factor ld : Z).
Let loop := levels_loop rnd log2.

Lemma loop_app : forall fuel levels back,
  loop fuel prefixes n factor ld levels back =
  match loop fuel prefixes n factor ld [] back with
  | Some (Ok t) => Some (Ok (levels ++ t))
  | o => o
  end.
Proof using.
  clear. intros fuel. unfold loop. induction fuel as [|fuel IH]; intros levels back; cbn [levels_loop].
  - destruct (back <? ld)%Z; auto. rewrite app_nil_r. auto.
  - destruct (back <? ld)%Z; [|rewrite app_nil_r; auto].
    destruct (next_level rnd log2 prefixes n factor ld back) as [next|c| |]; auto.
    rewrite (IH (levels ++ [next])), (IH ([] ++ [next])).
    destruct (levels_loop rnd log2 fuel prefixes n factor ld [] next) as [[t|c| |]|]; auto.
    rewrite <- app_assoc. reflexivity.
Qed.

Lemma loop_det : forall f1 f2 back t1 t2,
  loop f1 prefixes n factor ld [] back = Some (Ok t1) -> loop f2 prefixes n factor ld [] back = Some (Ok t2) -> t1 = t2.
Proof using.
  induction f1 as [|f1 IH]; intros f2 back t1 t2 H1 H2; unfold loop in H1, H2; cbn [levels_loop] in H1.
  - destruct (back <? ld)%Z eqn:E; [discriminate|]. destruct f2; cbn [levels_loop] in H2; rewrite E in H2; congruence.
  - destruct (back <? ld)%Z eqn:E; [|destruct f2; cbn [levels_loop] in H2; rewrite E in H2; congruence].
    destruct f2 as [|f2]; cbn [levels_loop] in H2; rewrite E in H2; [discriminate|].
    destruct (next_level rnd log2 prefixes n factor ld back) as [next|c| |]; try discriminate.
    change (loop f1 prefixes n factor ld ([] ++ [next]) next = Some (Ok t1)) in H1.
    change (loop f2 prefixes n factor ld ([] ++ [next]) next = Some (Ok t2)) in H2.
    rewrite loop_app in H1, H2.
    destruct (loop f1 prefixes n factor ld [] next) as [[u1| | |]|] eqn:E1; try discriminate.
    destruct (loop f2 prefixes n factor ld [] next) as [[u2| | |]|] eqn:E2; try discriminate.
    rewrite (IH _ _ _ _ E1 E2) in H1. congruence.
Qed.

Lemma loop_sub : forall fuel back t x, loop fuel prefixes n factor ld [] back = Some (Ok t) -> In x t ->
  exists fuel' t', loop fuel' prefixes n factor ld [] x = Some (Ok t') /\ (length t' < length t)%nat.
Proof using.
  induction fuel as [|fuel IH]; intros back t x H Hx; unfold loop in H; cbn [levels_loop] in H.
  - destruct (back <? ld)%Z; [discriminate|]. inv H. destruct Hx.
  - destruct (back <? ld)%Z; [|inv H; destruct Hx].
    destruct (next_level rnd log2 prefixes n factor ld back) as [next|c| |]; try discriminate.
    change (loop fuel prefixes n factor ld ([] ++ [next]) next = Some (Ok t)) in H. rewrite loop_app in H.
    destruct (loop fuel prefixes n factor ld [] next) as [[u| | |]|] eqn:E; try discriminate. inv H.
    destruct Hx as [<-|Hx].
    + exists fuel, u. split; [auto|]. cbn [app length]. lia.
    + destruct (IH _ _ _ E Hx) as (f' & t' & H1 & H2). exists f', t'. split; [auto|]. cbn [app length]. lia.
Qed.

Lemma loop_nodup : forall fuel back t, loop fuel prefixes n factor ld [] back = Some (Ok t) -> NoDup (back :: t).
Proof using.
  induction fuel as [|fuel IH]; intros back t H.
  - constructor.
    + intros Hx. destruct (loop_sub _ _ _ _ H Hx) as (f' & t' & H1 & H2). rewrite (loop_det _ _ _ _ _ H1 H) in H2. lia.
    + unfold loop in H. cbn [levels_loop] in H. destruct (back <? ld)%Z; inv H. constructor.
  - constructor.
    + intros Hx. destruct (loop_sub _ _ _ _ H Hx) as (f' & t' & H1 & H2). rewrite (loop_det _ _ _ _ _ H1 H) in H2. lia.
    + unfold loop in H. cbn [levels_loop] in H. destruct (back <? ld)%Z; [|inv H; constructor].
      destruct (next_level rnd log2 prefixes n factor ld back) as [next|c| |]; try discriminate.
      change (loop fuel prefixes n factor ld ([] ++ [next]) next = Some (Ok t)) in H. rewrite loop_app in H.
      destruct (loop fuel prefixes n factor ld [] next) as [[u| | |]|] eqn:E; try discriminate. inv H.
      exact (IH _ _ E).
Qed.

Lemma next_le : forall back next, next_level rnd log2 prefixes n factor ld back = Ok next -> (next <= ld)%Z.
Proof using.
  intros back next H. unfold next_level in H. destruct (back + 1 <? 0)%Z; [discriminate|].
  do 5 (apply bind_ok in H; destruct H as (? & _ & H)). inv H. lia.
Qed.

Lemma loop_last : forall fuel back t, loop fuel prefixes n factor ld [] back = Some (Ok t) -> (back <= ld)%Z ->
  last (back :: t) 0%Z = ld /\ Forall (fun l => l <= ld)%Z t /\ ((back < ld)%Z -> t <> []).
Proof using.
  induction fuel as [|fuel IH]; intros back t H Hb; unfold loop in H; cbn [levels_loop] in H.
  - destruct (back <? ld)%Z eqn:E; inv H. split; [cbn; lia|]. split; [constructor|lia].
  - destruct (back <? ld)%Z eqn:E; [|inv H; split; [cbn; lia|split; [constructor|lia]]].
    destruct (next_level rnd log2 prefixes n factor ld back) as [next|c| |] eqn:EN; try discriminate.
    change (loop fuel prefixes n factor ld ([] ++ [next]) next = Some (Ok t)) in H. rewrite loop_app in H.
    destruct (loop fuel prefixes n factor ld [] next) as [[u| | |]|] eqn:E'; try discriminate. inv H.
    apply next_le in EN. destruct (IH _ _ E' EN) as (H1 & H2 & _). split; [exact H1|]. split; [constructor; auto|discriminate].
Qed.
End Levels.

(** What the double arithmetic has to satisfy: rounding is accurate and does not pass
    integers downwards, and log2 is accurate enough.  PropertiesExperiment.v shows that rounding to 53
    bits is like this. *)
Definition eps : Q := 1 # 1099511627776.
Record rounding_ok (rnd : Q -> Q) : Prop := {
  rnd_ge : forall z x, (0 <= z)%Z -> (inject_Z z <= x)%Q -> (x <= 1024)%Q -> (inject_Z z <= rnd x)%Q;
  rnd_near : forall x, (0 <= x)%Q -> (x <= 1024)%Q -> (x - eps <= rnd x)%Q /\ (rnd x <= x + eps)%Q
}.
Record log2_ok (log2 : Z -> Q) : Prop := {
  log2_range : forall z, (1 <= z < 2 ^ 31)%Z -> (0 <= log2 z <= 31)%Q;
  log2_two : forall z, (2 <= z < 2 ^ 31)%Z -> (1 <= log2 z)%Q;
  log2_three : forall z, (3 <= z < 2 ^ 31)%Z -> (3 # 2 <= log2 z)%Q;
  log2_four : forall z, (4 <= z < 2 ^ 31)%Z -> (2 <= log2 z)%Q;
  log2_mono : forall y z, (1 <= y <= z)%Z -> (z < 2 ^ 31)%Z -> (log2 y <= log2 z + eps)%Q
}.

(** Levels that increase to [ld] in steps of at most [B] bits. *)
Record rising_levels (B ld : Z) (levels : list Z) : Prop := {
  rl_nonempty : levels <> [];
  rl_sorted : StronglySorted Z.lt levels;
  rl_last : last levels 0%Z = ld;
  rl_first_gap : (nth 0 levels 0 <= B)%Z;
  rl_gaps : forall i, (S i < length levels)%nat -> (nth (S i) levels 0 - nth i levels 0 <= B)%Z
}.
(** Levels at which the hierarchical evaluation works: increasing from at least 1 to
    [ld] in steps of at most [B] bits. *)
Record good_levels (B ld : Z) (levels : list Z) : Prop := {
  gl_nonempty : levels <> [];
  gl_sorted : StronglySorted Z.lt levels;
  gl_positive : Forall (fun l => 1 <= l)%Z levels;
  gl_last : last levels 0%Z = ld;
  gl_first_gap : (nth 0 levels 0 <= B)%Z;
  gl_gaps : forall i, (S i < length levels)%nat -> (nth (S i) levels 0 - nth i levels 0 <= B)%Z
}.

Lemma double_to_int_floor : forall x, (0 <= x)%Q -> (x <= 2 ^ 30)%Q -> double_to_int x = Ok (Qfloor x).
Proof.
  intros x H0 H1. unfold double_to_int. apply Qle_bool_iff in H0. rewrite H0. apply Qle_bool_iff in H0.
  assert (0 <= Qfloor x)%Z by (change 0%Z with (Qfloor 0); apply Qfloor_resp_le; auto).
  assert (Qfloor x <= 2 ^ 30)%Z by (change (2 ^ 30)%Z with (Qfloor (2 ^ 30)); apply Qfloor_resp_le; auto).
  destruct ((- 2 ^ 31 <=? Qfloor x) && (Qfloor x <? 2 ^ 31))%Z eqn:E; [reflexivity|]. lia.
Qed.
Lemma floor_ge : forall x z, (inject_Z z <= x)%Q -> (z <= Qfloor x)%Z.
Proof. intros x z H. rewrite <- (Qfloor_Z z). apply Qfloor_resp_le. auto. Qed.
Lemma floor_lt : forall x z, (x < inject_Z z)%Q -> (Qfloor x < z)%Z.
Proof.
  intros x z H. pose proof (Qfloor_le x) as H1. assert (H2 : (inject_Z (Qfloor x) < inject_Z z)%Q) by lra.
  rewrite <- Zlt_Qlt in H2. auto.
Qed.

Section Ends.
Variable rnd : Q -> Q.
Variable log2 : Z -> Q.
Hypothesis HR : rounding_ok rnd.
Hypothesis HL : log2_ok log2.
Variables (f : flags) (lines : list (list (option N))) (prefixes : list (list N)).
Hypothesis Hin : fl_input f = true.
Hypothesis HP : main_prefixes f lines true = Ok prefixes.
Hypothesis Hb : exists x, bucket lines x.
Hypothesis Hlines : (Z.of_nat (length lines) < 2 ^ 31)%Z.
Hypothesis Hf : (3 <= fl_factor f < 2 ^ 31)%Z.
Hypothesis Hld : (1 <= fl_ld f <= 128)%Z.
Variable B : Z.
Let n : Z := Z.of_nat (length (last prefixes [])).
Hypothesis HB : (log2 n + log2 (fl_factor f) <= inject_Z B)%Q.

Lemma n_range : (1 <= n < 2 ^ 31)%Z /\ to_int32 n = n.
Proof using Hin HP Hb Hlines Hld.
  destruct (main_prefixes_spec f lines true prefixes Hin HP) as (P1 & P2 & P3 & P4 & P5).
  assert (1 <= n < 2 ^ 31)%Z.
  { split; [|unfold n; lia]. unfold n. rewrite P3.
    destruct (P5 (Z.to_nat (fl_ld f)) ltac:(lia) ltac:(lia)) as (_ & _ & P6).
    destruct Hb as (x & Hx). destruct (nth (Z.to_nat (fl_ld f)) prefixes []) as [|a l]; [|cbn [length]; lia].
    exfalso. apply (P6 (x / 2 ^ (Z.to_N (fl_ld f) - N.of_nat (Z.to_nat (fl_ld f))))). eauto. }
  split; [auto|]. unfold to_int32. rewrite Z.mod_small by lia. lia.
Qed.

Lemma count_range : forall i, (1 <= i <= Z.to_nat (fl_ld f))%nat ->
  exists p, nth_error prefixes i = Some p /\ (1 <= Z.of_nat (length p) <= n)%Z.
Proof using Hin HP Hb Hlines Hld.
  intros i Hi. destruct (main_prefixes_spec f lines true prefixes Hin HP) as (P1 & P2 & P3 & P4 & P5).
  destruct (nth_error prefixes i) as [p|] eqn:E; [|apply nth_error_None in E; lia].
  exists p. split; [auto|]. destruct (P5 i ltac:(lia) ltac:(lia)) as (_ & P6 & P7).
  rewrite (nth_error_nth _ _ _ E) in P6, P7. split; [|unfold n; lia].
  destruct Hb as (x & Hx). destruct p as [|a l]; [|cbn [length]; lia].
  exfalso. apply (P7 (x / 2 ^ (Z.to_N (fl_ld f) - N.of_nat i))). eauto.
Qed.

Lemma eps_small : (0 < eps)%Q /\ (4 * eps < 1 # 100)%Q.
Proof using. split; unfold eps; reflexivity. Qed.

Lemma step_ok : forall back, (-1 <= back < fl_ld f)%Z -> (0 <= back)%Z \/ fl_ld f = 0%Z ->
  exists next, next_level rnd log2 prefixes n (fl_factor f) (fl_ld f) back = Ok next /\
    (back < next <= fl_ld f)%Z /\ (next - back <= B)%Z.
Proof using HR HL Hin HP Hb Hlines Hld Hf HB.
  intros back Hback H0. assert (Hb0 : (0 <= back)%Z) by lia. clear H0.
  pose proof n_range as [Hn _]. destruct (count_range (Z.to_nat (back + 1)) ltac:(lia)) as (p & Hp & Hm).
  unfold next_level. destruct (back + 1 <? 0)%Z eqn:E1; [lia|].
  unfold at_or_ub. rewrite Hp. cbn [bind]. unfold log2_int.
  destruct (0 <? n)%Z eqn:E2; [|lia]. cbn [bind]. destruct (0 <? fl_factor f)%Z eqn:E3; [|lia]. cbn [bind].
  set (m := Z.of_nat (length p)) in *.
  assert (Em : to_int32 m = m) by (unfold to_int32; rewrite Z.mod_small by lia; lia). rewrite Em.
  destruct (0 <? m)%Z eqn:E4; [|lia]. cbn [bind].
  pose proof (log2_range _ HL n Hn) as Ln. pose proof (log2_range _ HL (fl_factor f) ltac:(lia)) as Lf.
  pose proof (log2_range _ HL m ltac:(lia)) as Lm. pose proof (log2_three _ HL (fl_factor f) Hf) as L4.
  pose proof (log2_mono _ HL m n ltac:(lia) ltac:(lia)) as Lmn.
  set (ln := log2 n) in *. set (lf := log2 (fl_factor f)) in *. set (lm := log2 m) in *.
  assert (Hq : (0 <= inject_Z back)%Q /\ (inject_Z back <= 128)%Q).
  { split; [change 0%Q with (inject_Z 0)|change 128%Q with (inject_Z 128)]; rewrite <- Zle_Qle; lia. }
  set (b := inject_Z back) in *. destruct eps_small as [He He2].
  destruct (rnd_near _ HR (b + ln)) as [R1 R1']; [lra|lra|].
  destruct (rnd_near _ HR (rnd (b + ln) + lf)) as [R2 R2']; [lra|lra|].
  destruct (rnd_near _ HR (rnd (rnd (b + ln) + lf) - lm)) as [R3 R3']; [lra|lra|].
  set (v := rnd (rnd (rnd (b + ln) + lf) - lm)) in *.
  rewrite double_to_int_floor; [|lra|]. 2:{ apply Qle_trans with 1000%Q; [lra|]. vm_compute. discriminate. }
  cbn [bind]. eexists. split; [reflexivity|].
  assert (F1 : (back + 1 <= Qfloor v)%Z).
  { apply floor_ge. rewrite inject_Z_plus. fold b. change (inject_Z 1) with 1%Q. lra. }
  assert (F2 : (Qfloor v < back + B + 1)%Z).
  { apply floor_lt. rewrite !inject_Z_plus. fold b. change (inject_Z 1) with 1%Q. lra. }
  lia.
Qed.

Theorem levels_end : exists levels, rising_levels B (fl_ld f) levels /\
  ((2 <= fl_ld f)%Z -> (4 <= fl_factor f)%Z \/ (2 <= n)%Z -> good_levels B (fl_ld f) levels) /\
  forall fuel, (Z.to_nat (fl_ld f) <= fuel)%nat ->
    compute_levels rnd log2 fuel prefixes (fl_ld f) (fl_factor f) = Some (Ok levels).
Proof using HR HL Hin HP Hb Hlines Hld Hf HB.
  pose proof n_range as [Hn Hn'].
  pose proof (log2_range _ HL n Hn) as Ln. pose proof (log2_range _ HL (fl_factor f) ltac:(lia)) as Lf.
  pose proof (log2_three _ HL (fl_factor f) Hf) as L4.
  set (v := rnd (log2 n + log2 (fl_factor f))).
  assert (V1 : (1 <= v)%Q).
  { unfold v. change 1%Q with (inject_Z 1). apply (rnd_ge _ HR); [lia| |lra].
    change (inject_Z 1) with 1%Q. lra. }
  assert (V2 : (4 <= fl_factor f)%Z \/ (2 <= n)%Z -> (2 <= v)%Q).
  { intros H. assert (2 <= log2 n + log2 (fl_factor f))%Q.
    { destruct H as [H|H]; [pose proof (log2_four _ HL (fl_factor f) ltac:(lia)); lra|pose proof (log2_two _ HL n ltac:(lia)); lra]. }
    unfold v. change 2%Q with (inject_Z 2). apply (rnd_ge _ HR); [lia| |lra].
    change (inject_Z 2) with 2%Q. lra. }
  destruct eps_small as [He He2].
  destruct (rnd_near _ HR (log2 n + log2 (fl_factor f))) as [R1 R1']; [lra|lra|]. fold v in R1, R1'.
  assert (HFL : first_level rnd log2 prefixes (fl_factor f) (fl_ld f) = Ok (Z.min (fl_ld f) (Qfloor v) - 1)%Z).
  { unfold first_level. cbv zeta. fold n. rewrite Hn'. destruct (n <=? 0)%Z eqn:E1; [lia|]. unfold log2_int.
    destruct (0 <? n)%Z eqn:E2; [|lia]. destruct (0 <? fl_factor f)%Z eqn:E3; [|lia]. cbn [bind].
    fold v. rewrite double_to_int_floor; [reflexivity|lra|].
    apply Qle_trans with 1000%Q; [lra|]. vm_compute. discriminate. }
  assert (F1 : (1 <= Qfloor v)%Z) by (apply floor_ge; exact V1).
  assert (F3 : (4 <= fl_factor f)%Z \/ (2 <= n)%Z -> (2 <= Qfloor v)%Z) by (intros H; apply floor_ge; exact (V2 H)).
  assert (F2 : (Qfloor v < B + 1)%Z).
  { apply floor_lt. rewrite inject_Z_plus. change (inject_Z 1) with 1%Q. lra. }
  set (first := (Z.min (fl_ld f) (Qfloor v) - 1)%Z) in *.
  (* progress is only needed from the first level on *)
  assert (HE : forall fuel back, (0 <= back <= fl_ld f)%Z -> (Z.to_nat (fl_ld f - back) <= fuel)%nat ->
     exists t, levels_loop rnd log2 fuel prefixes n (fl_factor f) (fl_ld f) [] back = Some (Ok t) /\
       StronglySorted Z.lt (back :: t) /\
       forall i, (S i < length (back :: t))%nat -> (nth (S i) (back :: t) 0 - nth i (back :: t) 0 <= B)%Z).
  { clear first HFL F1 F2 F3. induction fuel as [|fuel IH]; intros back Hbk Hfu.
    - exists []. cbn [levels_loop]. destruct (back <? fl_ld f)%Z eqn:E; [lia|]. split; [auto|].
      split; [repeat constructor|]. cbn. intros. lia.
    - destruct (back <? fl_ld f)%Z eqn:E.
      + destruct (step_ok back ltac:(lia) ltac:(lia)) as (next & HN & Hlt & HBn).
        destruct (IH next ltac:(lia) ltac:(lia)) as (t & Ht & HS & HG).
        exists (next :: t). split.
        * cbn [levels_loop]. rewrite E, HN. rewrite loop_app, Ht. reflexivity.
        * split.
          { constructor; [auto|]. constructor; [lia|]. inversion HS; subst. eapply Forall_impl; [|eassumption]. cbn. lia. }
          { intros [|i] Hi; [cbn; lia|]. cbn [nth length] in *. apply (HG i). lia. }
      + exists []. cbn [levels_loop]. rewrite E. split; [auto|].
        split; [repeat constructor|]. cbn. intros. lia. }
  destruct (HE (Z.to_nat (fl_ld f)) first ltac:(lia) ltac:(lia)) as (t & Ht & HS & HG).
  destruct (loop_last _ _ _ _ _ _ _ _ _ Ht ltac:(lia)) as (T1 & T2 & T3).
  exists (first :: t). split; [|split].
  - split; auto; [discriminate|cbn; lia].
  - intros Hl2 H. specialize (F3 H). split; auto; [discriminate| |cbn; lia].
    constructor; [lia|]. inversion HS; subst. eapply Forall_impl; [|eassumption]. cbn. lia.
  - intros fuel Hfu. unfold compute_levels. rewrite HFL. fold n. rewrite Hn'. rewrite loop_app.
    destruct (HE fuel first ltac:(lia) ltac:(lia)) as (t' & Ht' & _).
    rewrite Ht'. rewrite (loop_det _ _ _ _ _ _ _ _ _ _ _ Ht' Ht). reflexivity.
Qed.
End Ends.

(** ** Evaluation *)

Lemma nth_last_removelast : forall A (l : list A) i a, (S i < length l)%nat -> nth i (removelast l) a = nth i l a.
Proof.
  induction l as [|x l IH]; intros i a Hi; [cbn in Hi; lia|]. destruct l as [|y l]; [cbn in Hi; lia|].
  change (removelast (x :: y :: l)) with (x :: removelast (y :: l)). destruct i; [reflexivity|].
  cbn [nth]. rewrite (IH i a); [reflexivity|]. cbn [length] in *. lia.
Qed.
Lemma length_removelast : forall A (l : list A), length (removelast l) = (length l - 1)%nat.
Proof.
  induction l as [|x l IH]; [reflexivity|]. destruct l as [|y l]; [reflexivity|].
  change (removelast (x :: y :: l)) with (x :: removelast (y :: l)). cbn [length]. rewrite IH. cbn [length]. lia.
Qed.
Lemma sorted_nth : forall l i j, StronglySorted Z.lt l -> (i < j < length l)%nat -> (nth i l 0 < nth j l 0)%Z.
Proof.
  induction l as [|x l IH]; intros i j H Hij; [cbn in Hij; lia|]. inversion H; subst.
  destruct j as [|j]; [lia|]. destruct i as [|i]; cbn [nth length] in *.
  - rewrite Forall_forall in H3. apply H3. apply nth_In. lia.
  - apply IH; auto. lia.
Qed.

(** The elements that level [i] evaluates: the whole first domain, then all extensions of
    the buckets' prefixes at the previous level. *)
Definition points (prefixes : list (list N)) (levels : list Z) (i : nat) : list N :=
  match i with
  | O => extensions 0 (Z.to_N (nth 0 levels 0%Z))
  | S j => flat_map (fun p => extensions p (Z.to_N (nth (S j) levels 0%Z - nth j levels 0%Z)))
             (nth (Z.to_nat (nth j levels 0%Z)) prefixes [])
  end.

Lemma in_extensions : forall p g x, x / 2 ^ g = p -> In x (extensions p g).
Proof.
  intros p g x H. unfold extensions. apply in_map_iff. exists (N.to_nat (x mod 2 ^ g)).
  assert (2 ^ g <> 0) by (apply N.pow_nonzero; discriminate).
  split.
  - rewrite N2Nat.id. rewrite <- H. pose proof (N.div_mod x (2 ^ g) ltac:(auto)). lia.
  - apply in_seq. pose proof (N.mod_lt x (2 ^ g) ltac:(auto)). lia.
Qed.

Lemma beta1_repr : repr (TInt 32) (to_value (TInt 128) (VNum 1)) (VNum 1).
Proof.
  change (to_value (TInt 128) (VNum 1)) with (to_value (TInt 32) (VNum 1)). apply to_value_repr; reflexivity.
Qed.

Section Run.
Variables (aes : N -> N -> N) (F : fops) (f : flags) (lines : list (list (option N))) (prefixes : list (list N)).
Hypothesis Hin : fl_input f = true.
Hypothesis HP : main_prefixes f lines true = Ok prefixes.
Hypothesis Hb : exists x, bucket lines x.
Hypothesis Hrange : forall x, bucket lines x -> x < 2 ^ Z.to_N (fl_ld f).
Hypothesis Hlines : N.of_nat (length lines) < 2 ^ 30.
Hypothesis Hld : (fl_ld f <= 128)%Z.
Variable levels : list Z.
Hypothesis HG : good_levels 26 (fl_ld f) levels.
Let ps := experiment_params levels.
Let L (i : nat) : Z := nth i levels 0%Z.

Lemma L_range : forall i, (i < length levels)%nat -> (1 <= L i <= fl_ld f)%Z.
Proof using All.
  intros i Hi. split.
  - pose proof (gl_positive _ _ _ HG) as H. rewrite Forall_forall in H. apply H. apply nth_In. auto.
  - rewrite <- (gl_last _ _ _ HG), last_nth. destruct (Nat.eq_dec i (length levels - 1)) as [->|]; [unfold L; lia|].
    pose proof (sorted_nth levels i (length levels - 1) (gl_sorted _ _ _ HG) ltac:(lia)). unfold L. lia.
Qed.
Lemma L_last : L (length levels - 1) = fl_ld f.
Proof using All. unfold L. rewrite <- last_nth. exact (gl_last _ _ _ HG). Qed.
Lemma levels_pos : (0 < length levels)%nat.
Proof using All. pose proof (gl_nonempty _ _ _ HG). destruct levels; [congruence|cbn; lia]. Qed.

Lemma prefixes_at : forall i, (i < length levels)%nat -> exists p, nth_error prefixes (Z.to_nat (L i)) = Some p /\
  p = nth (Z.to_nat (L i)) prefixes [] /\ p <> [] /\ (length p <= length lines)%nat /\
  forall y, In y p <-> exists x, bucket lines x /\ y = x / 2 ^ Z.to_N (fl_ld f - L i).
Proof using All.
  intros i Hi. destruct (main_prefixes_spec f lines true prefixes Hin HP) as (P1 & P2 & P3 & P4 & P5).
  pose proof (L_range i Hi) as HL.
  destruct (nth_error prefixes (Z.to_nat (L i))) as [p|] eqn:E; [|apply nth_error_None in E; lia].
  exists p. split; [auto|]. destruct (P5 (Z.to_nat (L i)) ltac:(lia) ltac:(lia)) as (_ & P6 & P7).
  rewrite (nth_error_nth _ _ _ E) in *. split; [reflexivity|].
  replace (Z.to_N (fl_ld f) - N.of_nat (Z.to_nat (L i))) with (Z.to_N (fl_ld f - L i)) in P7 by lia.
  split; [|split; [lia|exact P7]]. intros ->. destruct Hb as (x & Hx). apply (P7 (x / 2 ^ Z.to_N (fl_ld f - L i))). eauto.
Qed.

Definition pe : list (list N) := [] :: map (fun l => nth (Z.to_nat l) prefixes []) (removelast levels).
Lemma pe_ok : prefixes_to_evaluate prefixes levels = Ok pe.
Proof using All.
  unfold prefixes_to_evaluate.
  assert (H : mapM (fun l => if (l <? 0)%Z then UB else at_or_ub prefixes (Z.to_nat l)) (removelast levels)
              = Ok (map (fun l => nth (Z.to_nat l) prefixes []) (removelast levels))).
  { apply mapM_map_ok. intros l Hl. apply In_nth with (d := 0%Z) in Hl. destruct Hl as (i & Hi & <-).
    rewrite length_removelast in Hi. rewrite nth_last_removelast by lia.
    destruct (prefixes_at i ltac:(lia)) as (p & E1 & E2 & _). pose proof (L_range i ltac:(lia)). unfold L in *.
    destruct (nth i levels 0 <? 0)%Z eqn:E; [lia|]. unfold at_or_ub. rewrite E1. congruence. }
  rewrite H. reflexivity.
Qed.
Lemma pe_length : length pe = length levels.
Proof using All. unfold pe. cbn [length]. rewrite map_length, length_removelast. pose proof levels_pos. lia. Qed.
Lemma pe_nth : forall i, (i < length levels)%nat ->
  nth i pe [] = match i with O => [] | S j => nth (Z.to_nat (L j)) prefixes [] end.
Proof using All.
  clear - levels. intros [|j] Hi; [reflexivity|]. unfold pe. cbn [nth].
  assert (HX : forall (g : Z -> list N) l k, (k < length l)%nat -> nth k (map g l) [] = g (nth k l 0%Z)).
  { intros g. induction l as [|a l IH]; intros [|k] Hk; cbn [length map nth] in *; try lia; auto. apply IH. lia. }
  rewrite HX by (rewrite length_removelast; lia). rewrite nth_last_removelast by lia. reflexivity.
Qed.

Lemma ps_length : length ps = length levels.
Proof using All. apply map_length. Qed.
Lemma ps_nth : forall i, (i < length levels)%nat ->
  nth_error ps i = Some {| p_ld := L i; p_vt := Some (PTInteger 32); p_sec := DFin 0 |}.
Proof using All.
  intros i Hi. unfold ps, experiment_params. erewrite map_nth_error; [reflexivity|]. apply nth_error_nth'. auto.
Qed.
Lemma ps_ld : forall i, (i < length levels)%nat -> level_ld ps i = Z.to_N (L i).
Proof using All. intros i Hi. unfold level_ld. rewrite ps_nth by auto. reflexivity. Qed.
Lemma ps_last : last_ld ps = Z.to_N (fl_ld f).
Proof using All. unfold last_ld. rewrite ps_length, ps_ld by (pose proof levels_pos; lia). rewrite L_last. reflexivity. Qed.
Lemma ps_has : forall i, (i < length levels)%nat -> level_has ps i (TInt 32).
Proof using All. intros i Hi. split; [reflexivity|]. eexists. split; [apply ps_nth; auto|]. apply (denotes_int 32). Qed.

Lemma experiment_create : exists d, create_incremental F ps = Ok d.
Proof using All.
  apply create_accepts.
  - split.
    + intros E. pose proof levels_pos. pose proof ps_length as H0. rewrite E in H0. cbn in H0. lia.
    + apply Forall_forall. intros p Hp. apply In_nth_error in Hp. destruct Hp as (i & Hp).
      assert (Hi : (i < length levels)%nat) by (rewrite <- ps_length; apply nth_error_Some; congruence).
      rewrite ps_nth in Hp by auto. inv Hp. cbn [p_ld]. pose proof (L_range i Hi). lia.
    + intros i j p q Hij Hp Hq.
      assert (Hj : (j < length levels)%nat) by (rewrite <- ps_length; apply nth_error_Some; congruence).
      rewrite ps_nth in Hp, Hq by lia. inv Hp. inv Hq. cbn [p_ld]. apply sorted_nth; [exact (gl_sorted _ _ _ HG)|lia].
    + apply Forall_forall. intros p Hp. apply in_map_iff in Hp. destruct Hp as (l & <- & _). exists (PTInteger 32).
      split; [reflexivity|]. constructor. exists 5%Z. split; [lia|reflexivity].
    + apply Forall_forall. intros p Hp. apply in_map_iff in Hp. destruct Hp as (l & <- & _). cbn. split; discriminate.
  - apply Forall_forall. intros p Hp. apply in_map_iff in Hp. destruct Hp as (l & <- & _). split; [reflexivity|]. exists (TInt 32).
    split; [reflexivity|]. split; [apply (denotes_int 32)|]. left. reflexivity.
Qed.

Variable d0 : dpf.
Hypothesis Hd : create_incremental F ps = Ok d0.
Let d := register_value_type (TInt 128) d0.
Lemma experiment_created : created F ps [TInt 128] d.
Proof using All. exists d0. split; [exact Hd|]. split; [repeat constructor|reflexivity]. Qed.

Definition beta1 : list pvalue := map (fun _ => to_value (TInt 128) (VNum 1)) levels.
Lemma experiment_keys : forall alpha seed0 seed1, alpha < 2 ^ Z.to_N (fl_ld f) ->
  exists k0 k1, generate_keys aes d alpha beta1 seed0 seed1 = Ok (k0, k1).
Proof using All.
  intros alpha seed0 seed1 Ha. apply (C07_keygen_accepts_partial aes F ps [TInt 128] d).
  - exact experiment_created.
  - apply Forall_forall. intros p Hp. apply in_map_iff in Hp. destruct Hp as (l & <- & _). exists (TInt 32).
    split; [cbn; tauto|reflexivity].
  - repeat constructor. eapply DpfFacts.shape_roomy; [exact experiment_created|reflexivity].
  - split.
    + unfold ps, experiment_params, beta1. clear. induction levels as [|l levels' IH]; cbn [map]; constructor; auto.
      exists (TInt 32), (VNum 1). split; [reflexivity|]. split; [apply (denotes_int 32)|]. apply beta1_repr.
    + rewrite ps_last. auto.
Qed.

Definition calls_from (h : nat) (pes : list (list N)) : list call :=
  zip2 (fun i p => Until i (TInt 32) p) (seq h (length pes)) pes.

Lemma gap_pe : forall i, (i < length levels)%nat ->
  gap ps (match i with O => None | S j => Some j end) i <= 26.
Proof using All.
  intros i Hi. unfold gap. destruct i as [|j].
  - rewrite ps_ld by auto. pose proof (gl_first_gap _ _ _ HG). unfold L. lia.
  - rewrite !ps_ld by lia. pose proof (gl_gaps _ _ _ HG j ltac:(lia)). unfold L. lia.
Qed.
Lemma outputs_points : forall i, (i < length levels)%nat ->
  outputs ps (match i with O => None | S j => Some j end) i (nth i pe []) = points prefixes levels i.
Proof using All.
  intros i Hi. rewrite pe_nth by auto. unfold outputs, points. destruct i as [|j].
  - rewrite ps_ld by auto. reflexivity.
  - rewrite !ps_ld by lia. pose proof (L_range (S j) Hi). pose proof (L_range j ltac:(lia)).
    replace (Z.to_N (L (S j)) - Z.to_N (L j)) with (Z.to_N (nth (S j) levels 0 - nth j levels 0)%Z) by (unfold L in *; lia).
    reflexivity.
Qed.
(** Every bucket is among the evaluated elements of every level. *)
Lemma buckets_covered : forall i x, (i < length levels)%nat -> bucket lines x ->
  In (x / 2 ^ Z.to_N (fl_ld f - L i)) (points prefixes levels i).
Proof using All.
  intros i x Hi Hx. pose proof (L_range i Hi) as HLi. unfold points. destruct i as [|j].
  - apply in_extensions. rewrite N.div_div by (apply N.pow_nonzero; discriminate). rewrite <- N.pow_add_r.
    replace (Z.to_N (fl_ld f - L 0) + Z.to_N (nth 0 levels 0%Z)) with (Z.to_N (fl_ld f)) by (unfold L in *; lia).
    apply N.div_small. auto.
  - pose proof (L_range j ltac:(lia)) as HLj. pose proof (sorted_nth levels j (S j) (gl_sorted _ _ _ HG) ltac:(lia)) as Hlt.
    fold (L j) (L (S j)) in Hlt |- *. apply in_flat_map. exists (x / 2 ^ Z.to_N (fl_ld f - L j)). split.
    + destruct (prefixes_at j ltac:(lia)) as (p & _ & E & _ & _ & E2). rewrite <- E. apply E2. eauto.
    + apply in_extensions. rewrite N.div_div by (apply N.pow_nonzero; discriminate). rewrite <- N.pow_add_r.
      f_equal. f_equal. lia.
Qed.

Lemma run_valid : forall k i, (k + i = length levels)%nat ->
  forall allowed : N -> Prop,
    (forall j, i = S j -> forall x, bucket lines x -> allowed (x / 2 ^ Z.to_N (fl_ld f - L j))) ->
  valid_history ps d (match i with O => None | S j => Some j end) allowed (calls_from i (skipn i pe)).
Proof using All.
  induction k as [|k IH]; intros i Hi allowed HA.
  - rewrite skipn_all2 by (rewrite pe_length; lia). constructor.
  - assert (Hlt : (i < length levels)%nat) by lia.
    assert (E : skipn i pe = nth i pe [] :: skipn (S i) pe).
    { pose proof pe_length as HL'. clear - HL' Hlt. assert (H : (i < length pe)%nat) by lia. clear HL' Hlt.
      revert i H. induction pe as [|a l IHl]; intros i H; [cbn in H; lia|]. destruct i; [reflexivity|].
      change (skipn (S i) (a :: l)) with (skipn i l). cbn [nth]. rewrite IHl by (cbn in H; lia). reflexivity. }
    rewrite E. unfold calls_from. cbn [length seq zip2].
    assert (HN : N.of_nat (Nat.max 1 (length (nth i pe []))) < 2 ^ 30).
    { rewrite pe_nth by auto. destruct i as [|j]; [reflexivity|].
      destruct (prefixes_at j ltac:(lia)) as (p & _ & Ep & _ & Hp & _). rewrite <- Ep.
      assert (1 <= N.of_nat (length lines)).
      { destruct Hb as (x & rest & Hx). destruct lines; [destruct Hx|cbn [length]; lia]. }
      lia. }
    pose proof (gap_pe i Hlt) as Hg.
    set (prev := match i with O => None | S j => Some j end) in *.
    assert (EL : call_level prev (Until i (TInt 32) (nth i pe [])) = i) by reflexivity.
    assert (Hpow : 2 ^ gap ps prev i <= 2 ^ 26) by (apply N.pow_le_mono_r; lia).
    constructor; rewrite ?EL; cbn [call_type call_prefixes].
    + apply ps_has. auto.
    + rewrite pe_nth by auto. subst prev. destruct i as [|j]; [reflexivity|].
      destruct (prefixes_at j ltac:(lia)) as (p & _ & Ep & Hne & _ & Hp). rewrite <- Ep.
      split; [lia|]. split; [auto|]. apply Forall_forall. intros y Hy. apply Hp in Hy. destruct Hy as (x & Hx & ->).
      apply HA; auto.
    + lia.
    + clear - HN Hpow. assert (N.of_nat (length (nth i pe [])) <= 2 ^ 30) by lia.
      apply N.le_lt_trans with (2 ^ 30 * 2 ^ 26); [apply N.mul_le_mono; auto|reflexivity].
    + apply (C02_small_gaps F ps [TInt 128] d).
      * exact experiment_created.
      * intros h Hh. rewrite ps_length in Hh. exists (TInt 32). apply ps_has. auto.
      * rewrite ps_length. auto.
      * subst prev. destruct i; [auto|lia].
      * auto.
      * rewrite N.pow_add_r. clear - HN Hpow.
        apply N.lt_le_trans with (2 ^ 30 * (2 ^ 26 * 2 ^ 4)); [|vm_compute; discriminate].
        apply N.le_lt_trans with (N.of_nat (Nat.max 1 (length (nth i pe []))) * (2 ^ 26 * 2 ^ 4)).
        { apply N.mul_le_mono_l. apply N.mul_le_mono_r. auto. }
        { apply N.mul_lt_mono_pos_r; [reflexivity|auto]. }
    + change (Some i) with (match S i with O => None | S j => Some j end).
      change (zip2 (fun (i0 : nat) (p : list N) => Until i0 (TInt 32) p) (seq (S i) (length (skipn (S i) pe))) (skipn (S i) pe))
        with (calls_from (S i) (skipn (S i) pe)).
      apply IH; [lia|]. intros j Hj x Hx. inv Hj. subst prev. rewrite outputs_points by auto. apply buckets_covered; auto.
Qed.

(** The loop of the program is the sequence of calls. *)
Lemma loop_calls : forall pes h c outs,
  Forall2 (fun r o => r = Ok o) (run_calls aes d c (calls_from h pes)) outs ->
  hierarchical_loop aes d h pes c = Ok outs.
Proof using All.
  induction pes as [|p pes IH]; intros h c outs H; unfold calls_from in H; cbn [length seq zip2 run_calls] in H.
  - inversion H. reflexivity.
  - cbn [run_call] in H. cbn [hierarchical_loop].
    destruct (evaluate_until aes d (TInt 32) (Z.of_nat h) p c) as [r c'] eqn:E.
    inversion H as [|r' o rs outs' H1 H2]; subst. cbn [value_or_abort bind].
    rewrite (IH _ _ _ H2). reflexivity.
Qed.

Lemma split_history : forall alpha pes h out0 out1,
  (h + length pes = length levels)%nat -> pes = skipn h pe ->
  history_reconstructs ps alpha beta1 (match h with O => None | S j => Some j end) (calls_from h pes) out0 out1 ->
  exists o0 o1, Forall2 (fun r o => r = Ok o) out0 o0 /\ Forall2 (fun r o => r = Ok o) out1 o1 /\
    length o0 = length pes /\ length o1 = length pes /\
    forall i, (i < length pes)%nat ->
      reconstruct (TInt 32) (alpha / 2 ^ Z.to_N (fl_ld f - L (h + i))) (VNum 1)
        (points prefixes levels (h + i)) (nth i o0 []) (nth i o1 []).
Proof using All.
  intros alpha. induction pes as [|p pes IH]; intros h out0 out1 Hl Hpe H; unfold calls_from in H; cbn [length seq zip2] in H.
  - destruct out0, out1; try destruct H. exists [], []. repeat split; try constructor. cbn [length]. intros. lia.
  - cbn [length] in Hl. cbn [history_reconstructs] in H. destruct out0 as [|r0 out0], out1 as [|r1 out1]; try destruct H.
    destruct H as (l0 & l1 & b & v & -> & -> & Hbn & Hv & Hrec).
    change (call_level _ (Until h (TInt 32) p)) with h in *. cbn [call_type call_prefixes] in *.
    assert (Hh : (h < length levels)%nat) by lia.
    assert (Ep : p = nth h pe []).
    { clear - Hpe. revert h Hpe. induction pe as [|a l IHl]; intros h Hpe; [destruct h; discriminate|].
      destruct h; [cbn in Hpe; cbn [nth]; congruence|]. cbn [skipn nth] in *. auto. }
    assert (Etl : pes = skipn (S h) pe).
    { clear - Hpe. revert h Hpe. induction pe as [|a l IHl]; intros h Hpe; [destruct h; discriminate|].
      destruct h; [cbn in Hpe; cbn; congruence|]. cbn [skipn] in *. apply IHl. auto. }
    destruct (IH (S h) out0 out1 ltac:(lia) Etl H0) as (o0 & o1 & F0 & F1 & N0 & N1 & HX).
    exists (l0 :: o0), (l1 :: o1). split; [constructor; auto|]. split; [constructor; auto|]. cbn [length].
    split; [lia|]. split; [lia|]. intros [|i] Hi.
    + rewrite Nat.add_0_r. cbn [nth]. rewrite Ep in Hrec. rewrite outputs_points in Hrec by auto.
      assert (Ev : v = VNum 1).
      { unfold beta1 in Hbn. rewrite nth_error_map in Hbn. destruct (nth_error levels h); [|discriminate]. inv Hbn.
        pose proof beta1_repr as H1. inversion Hv; subst. inversion H1; subst.
        match goal with A : encodes ?i ?x, C : encodes ?i ?y |- _ => rewrite (encodes_fun _ _ _ A C); reflexivity end. }
      subst v. unfold alpha_prefix in Hrec. rewrite ps_last, ps_ld in Hrec by auto.
      pose proof (L_range h Hh). replace (Z.to_N (fl_ld f) - Z.to_N (L h)) with (Z.to_N (fl_ld f - L h)) in Hrec by lia.
      exact Hrec.
    + replace (h + S i)%nat with (S h + i)%nat by lia. cbn [nth]. apply HX. lia.
Qed.

Theorem run_reconstructs : forall alpha seed0 seed1 k0 k1, alpha < 2 ^ Z.to_N (fl_ld f) ->
  generate_keys aes d alpha beta1 seed0 seed1 = Ok (k0, k1) ->
  exists o0 o1, run_hierarchical aes d k0 pe = Ok o0 /\ run_hierarchical aes d k1 pe = Ok o1 /\
    length o0 = length levels /\ length o1 = length levels /\
    forall i, (i < length levels)%nat ->
      reconstruct (TInt 32) (alpha / 2 ^ Z.to_N (fl_ld f - L i)) (VNum 1)
        (points prefixes levels i) (nth i o0 []) (nth i o1 []).
Proof using All.
  intros alpha seed0 seed1 k0 k1 Ha HK.
  assert (Ha' : alpha < 2 ^ 128).
  { eapply N.lt_le_trans; [exact Ha|]. apply N.pow_le_mono_r; lia. }
  destruct (C08_generated_keys aes F ps [TInt 128] d _ _ _ _ k0 k1 experiment_created Ha' HK) as (_ & _ & (c0 & c1 & E0 & E1) & _).
  pose proof (C02_histories aes F ps [TInt 128] d alpha beta1 seed0 seed1 k0 k1 c0 c1 (calls_from 0 pe)
                experiment_created Ha' HK E0 E1) as HH.
  assert (HV : valid_history ps d None (fun _ => True) (calls_from 0 pe)).
  { apply (run_valid (length levels) 0 ltac:(lia) (fun _ => True)). intros. exact I. }
  specialize (HH HV).
  destruct (split_history alpha pe 0 _ _ ltac:(pose proof pe_length; lia) eq_refl HH) as (o0 & o1 & F0 & F1 & N0 & N1 & HX).
  rewrite pe_length in *.
  exists o0, o1. apply loop_calls in F0. apply loop_calls in F1.
  assert (HC : forall k c, create_evaluation_context d k = Ok c -> length (c_params c) = length pe).
  { intros k c H. unfold create_evaluation_context in H. bind_inv H. inv H. cbn [c_params].
    rewrite pe_length. transitivity (length ps); [|apply ps_length].
    exact (DpfHist.created_len _ _ _ _ experiment_created). }
  unfold run_hierarchical. rewrite E0, E1. cbn [value_or_abort bind].
  rewrite (HC _ _ E0), (HC _ _ E1), Nat.eqb_refl. cbn [negb]. repeat split; auto.
Qed.
End Run.

(** ** The batched evaluation *)

Lemma Forall3_lengths : forall A B C (R : A -> B -> C -> Prop) la lb lc, Forall3 R la lb lc ->
  length la = length lc /\ length lb = length lc.
Proof. induction 1 as [|a b c la lb lc _ _ [IH1 IH2]]; cbn [length]; auto. Qed.

Theorem batched_reconstructs : forall aes F f lines prefixes rand seed0 seed1,
  fl_input f = true -> main_prefixes f lines true = Ok prefixes -> fl_only_nonzeros f = true ->
  (forall x, bucket lines x -> x < 2 ^ Z.to_N (fl_ld f)) -> (fl_ld f <= 128)%Z -> rand < 2 ^ 128 ->
  exists o0 o1, main_run aes F f prefixes [fl_ld f] rand seed0 seed1 false = Ok [o0] /\
    main_run aes F f prefixes [fl_ld f] rand seed0 seed1 true = Ok [o1] /\
    reconstruct (TInt 32) (rand mod 2 ^ Z.to_N (fl_ld f)) (VNum 1) (last prefixes []) o0 o1.
Proof.
  intros aes F f lines prefixes rand seed0 seed1 Hin HP Hon Hrange Hld Hrand.
  destruct (main_prefixes_spec f lines true prefixes Hin HP) as (P1 & P2 & P3 & P4 & P5).
  assert (Hpos : (0 <= fl_ld f)%Z).
  { unfold main_prefixes in HP. bind_inv HP. destruct a. apply validate_ld. auto. }
  set (ps := experiment_params [fl_ld f]).
  set (alpha := rand mod 2 ^ Z.to_N (fl_ld f)).
  assert (Ea : (if (fl_ld f <? 128)%Z then rand mod 2 ^ Z.to_N (fl_ld f) else rand) = alpha).
  { unfold alpha. destruct (fl_ld f <? 128)%Z eqn:E; [reflexivity|].
    replace (fl_ld f) with 128%Z by lia. symmetry. apply N.mod_small. exact Hrand. }
  assert (Ha : alpha < 2 ^ Z.to_N (fl_ld f)) by (apply N.mod_lt, N.pow_nonzero; discriminate).
  assert (Ha' : alpha < 2 ^ 128).
  { eapply N.lt_le_trans; [exact Ha|]. apply N.pow_le_mono_r; lia. }
  assert (HC : exists d0, create_incremental F ps = Ok d0).
  { apply create_accepts.
    - split.
      + discriminate.
      + repeat constructor; cbn [p_ld]; lia.
      + intros [|i] [|j] p q Hij Hp Hq; try lia; cbn in Hq; destruct j; discriminate.
      + repeat constructor. exists (PTInteger 32). split; [reflexivity|]. constructor. exists 5%Z. split; [lia|reflexivity].
      + repeat constructor; cbn; discriminate.
    - repeat constructor. exists (TInt 32). split; [reflexivity|]. split; [apply (denotes_int 32)|]. left. reflexivity. }
  destruct HC as (d0 & Hd). set (d := register_value_type (TInt 128) d0).
  assert (HC : created F ps [TInt 128] d).
  { exists d0. split; [exact Hd|]. split; [repeat constructor|reflexivity]. }
  assert (HT : level_has ps 0 (TInt 32)).
  { split; [reflexivity|]. eexists. split; [reflexivity|]. apply (denotes_int 32). }
  set (beta := [to_value (TInt 128) (VNum 1)]).
  destruct (C07_keygen_accepts_partial aes F ps [TInt 128] d alpha beta seed0 seed1) as (k0 & k1 & HK).
  { exact HC. }
  { repeat constructor. exists (TInt 32). split; [cbn; tauto|reflexivity]. }
  { repeat constructor. eapply DpfFacts.shape_roomy; [exact HC|reflexivity]. }
  { split.
    - repeat constructor. exists (TInt 32), (VNum 1). split; [reflexivity|]. split; [apply (denotes_int 32)|]. apply beta1_repr.
    - exact Ha. }
  destruct (C01_evaluate_at_shares aes F ps [TInt 128] d alpha beta seed0 seed1 k0 k1 HC Ha' HK 0%nat (TInt 32) HT)
    as (b & v & Hbn & Hv & HE).
  assert (Ev : v = VNum 1).
  { cbn in Hbn. inv Hbn. pose proof beta1_repr as H1. inversion Hv; subst. inversion H1; subst.
    match goal with A : encodes ?i ?x, C : encodes ?i ?y |- _ => rewrite (encodes_fun _ _ _ A C); reflexivity end. }
  subst v.
  destruct (HE (last prefixes [])) as (o0 & o1 & E0 & E1 & HR).
  { rewrite P3. apply Forall_forall. intros y Hy. destruct (P5 (Z.to_nat (fl_ld f)) ltac:(lia) ltac:(lia)) as (_ & _ & P6).
    apply P6 in Hy. destruct Hy as (x & Hx & ->).
    replace (Z.to_N (fl_ld f) - N.of_nat (Z.to_nat (fl_ld f))) with 0 by lia. rewrite N.div_1_r.
    exact (Hrange x Hx). }
  assert (Eal : alpha_prefix ps alpha 0 = alpha).
  { unfold alpha_prefix, last_ld. cbn [ps experiment_params map length Nat.sub]. rewrite N.sub_diag. apply N.div_1_r. }
  rewrite Eal in HR. exists o0, o1.
  pose proof (Forall3_lengths _ _ _ _ _ _ _ HR) as [N0 N1]. rewrite map_length in N0, N1.
  assert (HD : Nat.eqb (length (d_params d)) 1 = true).
  { apply Nat.eqb_eq. transitivity (length ps); [|reflexivity]. exact (DpfHist.created_len _ _ _ _ HC). }
  assert (HM : forall party : bool, main_run aes F f prefixes [fl_ld f] rand seed0 seed1 party = Ok [if party then o1 else o0]).
  { intros party. unfold main_run. cbn [prefixes_to_evaluate removelast mapM bind]. fold ps. rewrite Hd.
    cbn [value_or_abort bind]. rewrite Ea. cbv zeta. fold d. change (map (fun _ : Z => to_value (TInt 128) (VNum 1)) [fl_ld f]) with beta.
    rewrite HK. cbn [value_or_abort bind]. rewrite Hon. unfold run_batched. rewrite HD. cbn [negb].
    change (Z.of_nat 0) with 0%Z in E0, E1.
    destruct party; [rewrite E1|rewrite E0]; cbn [value_or_abort bind]; rewrite ?N0, ?N1, Nat.eqb_refl; reflexivity. }
  split; [apply (HM false)|]. split; [apply (HM true)|]. exact HR.
Qed.
