(** Specification of walks in the DPF tree, independent of batching, and proofs that
    the hash, EvaluateSeeds and ExpandSeeds implement it. *)
From Coq Require Import List NArith ZArith Lia Bool ZifyBool ZifyNat ZifyN.
From Verif Require Import Base ListUtil ValueTypesModel DpfModel.
Import ListNotations.
Ltac Zify.zify_post_hook ::= Z.div_mod_to_equations.
Open Scope N_scope.

(** * Lists *)
Lemma zip2_length : forall A B C (f : A -> B -> C) la lb,
  length la = length lb -> length (zip2 f la lb) = length la.
Proof.
  induction la as [|a la IH]; intros [|b lb] H; cbn in *; try discriminate; auto.
Qed.
Lemma zip2_map_r : forall A B B' C (f : A -> B' -> C) (g : B -> B') la lb,
  zip2 f la (map g lb) = zip2 (fun a b => f a (g b)) la lb.
Proof. induction la as [|a la IH]; intros [|b lb]; cbn; auto. f_equal. apply IH. Qed.
Lemma zip2_map_l : forall A A' B C (f : A' -> B -> C) (g : A -> A') la lb,
  zip2 f (map g la) lb = zip2 (fun a b => f (g a) b) la lb.
Proof. induction la as [|a la IH]; intros [|b lb]; cbn; auto. f_equal. apply IH. Qed.
Lemma zip2_same : forall A C (f : A -> A -> C) l, zip2 f l l = map (fun a => f a a) l.
Proof. induction l; cbn; auto. f_equal. auto. Qed.
Lemma zip2_ext : forall A B C (f g : A -> B -> C) la lb,
  (forall a b, In a la -> In b lb -> f a b = g a b) -> zip2 f la lb = zip2 g la lb.
Proof.
  induction la as [|a la IH]; intros [|b lb] H; cbn; auto.
  f_equal; [apply H; left; auto|]. apply IH. intros. apply H; right; auto.
Qed.
Lemma zip2_nth_error : forall A B C (f : A -> B -> C) la lb i,
  nth_error (zip2 f la lb) i =
  match nth_error la i, nth_error lb i with
  | Some a, Some b => Some (f a b) | _, _ => None end.
Proof.
  induction la as [|a la IH]; intros lb i; cbn.
  - destruct i; destruct lb; reflexivity.
  - destruct lb as [|b lb]; destruct i as [|i]; cbn; auto.
    destruct (nth_error la i); auto.
Qed.
Lemma zip2_combine : forall A B C (f : A -> B -> C) la lb,
  zip2 f la lb = map (fun ab => f (fst ab) (snd ab)) (combine la lb).
Proof. induction la as [|a la IH]; intros [|b lb]; cbn; auto. f_equal. apply IH. Qed.
Lemma zip2_const_r : forall A B C (f : A -> B -> C) la b,
  zip2 f la (map (fun _ => b) la) = map (fun a => f a b) la.
Proof. induction la as [|a la IH]; intros b; cbn; auto. f_equal. apply IH. Qed.

(** Map with the index. *)
Section Imap.
  Context {A B : Type}.
  Variable f : nat -> A -> B.
  Fixpoint imap (start : nat) (l : list A) : list B :=
    match l with [] => [] | a :: l' => f start a :: imap (S start) l' end.
End Imap.
Lemma imap_app : forall A B (f : nat -> A -> B) l1 l2 s,
  imap f s (l1 ++ l2) = imap f s l1 ++ imap f (s + length l1) l2.
Proof.
  induction l1 as [|a l1 IH]; intros l2 s; cbn.
  - rewrite Nat.add_0_r. reflexivity.
  - rewrite IH. do 2 f_equal. f_equal. lia.
Qed.
Lemma imap_length : forall A B (f : nat -> A -> B) l s, length (imap f s l) = length l.
Proof. induction l; cbn; auto. Qed.
Lemma imap_ext : forall A B (f g : nat -> A -> B) l s,
  (forall i a, (s <= i < s + length l)%nat -> In a l -> f i a = g i a) -> imap f s l = imap g s l.
Proof.
  induction l as [|a l IH]; intros s H; cbn; auto. f_equal.
  - apply H; [cbn; lia|left; auto].
  - apply IH. intros. apply H; [cbn; lia|right; auto].
Qed.
Lemma imap_const : forall A B (f : A -> B) l s, imap (fun _ => f) s l = map f l.
Proof. induction l; intros; cbn; auto. f_equal; auto. Qed.
Lemma imap_nth_error : forall A B (f : nat -> A -> B) l s i,
  nth_error (imap f s l) i = option_map (f (s + i)%nat) (nth_error l i).
Proof.
  induction l as [|a l IH]; intros s i; destruct i; cbn; auto.
  - f_equal. f_equal. lia.
  - rewrite IH. f_equal. f_equal. lia.
Qed.
Lemma imap_imap_combine : forall A B (f : nat -> A * B -> B) la lb s, length la = length lb ->
  combine la (imap f s (combine la lb)) = imap (fun i ab => (fst ab, f i ab)) s (combine la lb).
Proof.
  induction la as [|a la IH]; intros [|b lb] s H; cbn in *; try discriminate; auto.
  f_equal. apply IH. lia.
Qed.
Lemma imap_comp : forall A B C (g : nat -> B -> C) (f : nat -> A -> B) l s,
  imap g s (imap f s l) = imap (fun i a => g i (f i a)) s l.
Proof. induction l; intros; cbn; auto. f_equal. auto. Qed.
Lemma concat_chunks_len : forall A n (l : list A), (0 < n)%nat ->
  length (concat (chunks n l)) = length l.
Proof. intros. rewrite concat_chunks; auto. Qed.
Lemma flat_map_map : forall A B C (f : B -> list C) (g : A -> B) l,
  flat_map f (map g l) = flat_map (fun a => f (g a)) l.
Proof. induction l; cbn; auto. f_equal; auto. Qed.
Lemma flat_map_flat_map : forall A B C (f : B -> list C) (g : A -> list B) l,
  flat_map f (flat_map g l) = flat_map (fun a => flat_map f (g a)) l.
Proof. induction l; cbn; auto. rewrite flat_map_app. f_equal; auto. Qed.
Lemma flat_map_ext_in : forall A B (f g : A -> list B) l,
  (forall a, In a l -> f a = g a) -> flat_map f l = flat_map g l.
Proof.
  induction l as [|a l IH]; intros H; cbn; auto. f_equal; [apply H; left; auto|].
  apply IH; intros; apply H; right; auto.
Qed.

Lemma nth_map : forall A B (f : A -> B) l i d d', (i < length l)%nat ->
  nth i (map f l) d = f (nth i l d').
Proof.
  induction l as [|a l IH]; intros [|i] d d' H; cbn in *; try lia; auto. apply IH. lia.
Qed.
Lemma nth_map_seq : forall A (f : nat -> A) n i d, (i < n)%nat ->
  nth i (map f (seq 0 n)) d = f i.
Proof.
  intros. rewrite (nth_map _ _ _ _ _ _ 0%nat) by (rewrite seq_length; auto).
  rewrite seq_nth by auto. reflexivity.
Qed.

(** * Bits *)
Lemma testbit_high : forall p i, p < P128 -> 128 <= i -> N.testbit p i = false.
Proof.
  intros p i Hp Hi. destruct (N.eq_dec p 0) as [->|Hn]; [apply N.bits_0|].
  apply N.bits_above_log2. apply N.log2_lt_pow2; [lia|].
  apply N.lt_le_trans with P128; auto.
  change P128 with (2 ^ 128). apply N.pow_le_mono_r; lia.
Qed.
Lemma testbit_lt_pow : forall x k n, x < 2 ^ k -> k <= n -> N.testbit x n = false.
Proof.
  intros x k n Hx Hk. destruct (N.eq_dec x 0) as [->|Hn]; [apply N.bits_0|].
  apply N.bits_above_log2. apply N.lt_le_trans with k; auto. apply N.log2_lt_pow2; lia.
Qed.

(** * The specification of one hash and one walk *)

Section Aes.
Variable aes : N -> N -> N.

(** H_k(x) = AES_k(sigma(x)) xor sigma(x). *)
Definition hash (k x : N) : N := N.lxor (aes k (sigma x)) (sigma x).

Lemma prg_evaluate_hash : forall k l, prg_evaluate aes k l = map (hash k) l.
Proof.
  intros k l. unfold prg_evaluate.
  transitivity (concat (map (map (hash k)) (chunks batch_size l))).
  - f_equal. apply map_ext. intros b.
    rewrite map_map, zip2_map_r, zip2_map_l, zip2_same. reflexivity.
  - rewrite concat_map_map. f_equal. apply concat_chunks. unfold batch_size; lia.
Qed.

(** One step down the tree: expand to the side given by [bit], correct if the control
    bit is set; the lowest bit of the result becomes the control bit. *)
Definition step (c : corr) (bit : bool) (n : node) : node :=
  let s := hash (if bit then kPrgKeyRight else kPrgKeyLeft) (fst n) in
  let s := if snd n then N.lxor s (fst c) else s in
  (clear_lowest s,
   xorb (lowest_bit s) (snd n && (if bit then snd (snd c) else fst (snd c)))).

(** Walk down following the path bits, most significant first: bit [length cs - 1 - i]
    of [path] decides at level i. *)
Fixpoint walk (cs : list corr) (path : N) (n : node) : node :=
  match cs with
  | [] => n
  | c :: cs' => walk cs' path (step c (N.testbit path (N.of_nat (length cs'))) n)
  end.

Lemma walk_ext : forall cs p q n,
  (forall i, (i < length cs)%nat -> N.testbit p (N.of_nat i) = N.testbit q (N.of_nat i)) ->
  walk cs p n = walk cs q n.
Proof.
  induction cs as [|c cs IH]; intros p q n H; cbn [walk]; auto.
  rewrite (H (length cs)) by (cbn; lia). apply IH. intros. apply H. cbn. lia.
Qed.

Lemma walk_app : forall a b p n,
  walk (a ++ b) p n = walk b p (walk a (N.shiftr p (N.of_nat (length b))) n).
Proof.
  induction a as [|c a IH]; intros b p n; cbn [walk app]; auto.
  rewrite IH. do 3 f_equal. rewrite app_length, N.shiftr_spec'. f_equal. lia.
Qed.

(** * EvaluateSeeds *)

Section Internal.
Variables (num_seeds num_levels : nat) (ncw : Z) (rs : nat) (cws : list corr).
(** Correction used at a level for a seed. *)
Definition ci (level idx : nat) : nat :=
  if (Z.of_nat num_levels <? ncw)%Z then (level * num_seeds + idx)%nat else level.
Definition cget (level idx : nat) : corr := nth (ci level idx) cws (0, (false, false)).
Definition pbit (p : N) (level : nat) : bool :=
  N.testbit p (N.of_nat (num_levels - level - 1 + rs)).
Hypothesis Hcws : forall level idx, (level < num_levels)%nat -> (idx < num_seeds)%nat ->
  (ci level idx < length cws)%nat.

Lemma walk_one_step : forall level idx p n,
  (level < num_levels)%nat -> (idx < num_seeds)%nat -> p < P128 ->
  walk_one num_seeds num_levels level ncw rs cws idx p (snd n)
    (hash kPrgKeyLeft (fst n)) (hash kPrgKeyRight (fst n))
  = Ok (step (cget level idx) (pbit p level) n).
Proof.
  intros level idx p [s t] Hl Hi Hp. unfold walk_one, step, pbit. cbn [fst snd].
  assert (HB : Nat.ltb (num_levels - level - 1 + rs) 128
               && N.testbit p (N.of_nat (num_levels - level - 1 + rs))
             = N.testbit p (N.of_nat (num_levels - level - 1 + rs))).
  { destruct (Nat.ltb_spec (num_levels - level - 1 + rs) 128); auto.
    cbn [andb]. symmetry. apply testbit_high; auto. lia. }
  rewrite HB. set (b := N.testbit p _).
  replace (if b then hash kPrgKeyRight s else hash kPrgKeyLeft s)
    with (hash (if b then kPrgKeyRight else kPrgKeyLeft) s) by (destruct b; auto).
  fold (ci level idx).
  destruct t.
  - unfold at_or_ub. rewrite (nth_error_nth' cws (0, (false, false))) by auto.
    cbn [bind]. reflexivity.
  - cbn [andb]. rewrite xorb_false_r. reflexivity.
Qed.

Lemma walk_batch_level_step : forall paths st start level, length paths = length st ->
  (level < num_levels)%nat -> (start + length st <= num_seeds)%nat ->
  Forall (fun p => p < P128) paths ->
  walk_batch_level aes num_seeds num_levels ncw rs cws start paths level st
  = Ok (imap (fun i pn => step (cget level i) (pbit (fst pn) level) (snd pn)) start
          (combine paths st)).
Proof.
  intros paths st start level HL Hlev Hs HF. unfold walk_batch_level.
  rewrite !prg_evaluate_hash, !map_map. revert st start HL Hs.
  induction paths as [|p paths IH]; intros [|[s t] st] start HL Hs; try discriminate;
    cbn [map walk_batch_loop combine imap]; auto.
  fcons HF Hp HF'. cbn [length] in *.
  pose proof (walk_one_step level start p (s, t) Hlev ltac:(lia) Hp) as HW.
  cbn [fst snd] in HW |- *. rewrite HW. cbn [bind].
  rewrite IH by (auto; lia). reflexivity.
Qed.

(** The walk of seed [idx] as a fold over levels. *)
Definition walkf (levels : list nat) (idx : nat) (p : N) (n : node) : node :=
  fold_left (fun n level => step (cget level idx) (pbit p level) n) levels n.

Lemma fold_levels : forall levels paths st start, length paths = length st ->
  Forall (fun l => (l < num_levels)%nat) levels -> (start + length st <= num_seeds)%nat ->
  Forall (fun p => p < P128) paths ->
  foldM (fun st level => walk_batch_level aes num_seeds num_levels ncw rs cws start paths level st)
    levels st
  = Ok (imap (fun i pn => walkf levels i (fst pn) (snd pn)) start (combine paths st)).
Proof.
  induction levels as [|l levels IH]; intros paths st start HL Hlev Hs HF; cbn [foldM].
  - f_equal. unfold walkf. cbn [fold_left]. clear - HL. revert st start HL.
    induction paths as [|p paths IH]; intros [|n st] start HL; cbn in *; try discriminate; auto.
    f_equal. apply IH. lia.
  - fcons Hlev Hl Hlev'. rewrite walk_batch_level_step by auto. cbn [bind].
    assert (HL2 : length (imap (fun i pn => step (cget l i) (pbit (fst pn) l) (snd pn)) start
                    (combine paths st)) = length st).
    { rewrite imap_length, combine_length. lia. }
    rewrite IH by (auto; lia). f_equal.
    rewrite imap_imap_combine by auto. rewrite imap_comp. cbn [fst snd].
    apply imap_ext. intros. reflexivity.
Qed.

Lemma walk_batches_spec : forall batches start,
  Forall (fun pn => fst pn < P128) (concat batches) ->
  (start + length (concat batches) <= num_seeds)%nat ->
  walk_batches aes num_seeds num_levels ncw rs cws start batches
  = Ok (imap (fun i pn => walkf (seq 0 num_levels) i (fst pn) (snd pn)) start (concat batches)).
Proof.
  induction batches as [|b batches IH]; intros start HF HL; cbn [walk_batches concat]; auto.
  cbn [concat] in HF, HL. rewrite app_length in HL.
  apply Forall_app in HF. destruct HF as [HF1 HF2].
  rewrite fold_levels.
  - cbn [bind]. rewrite IH by (auto; lia). cbn [bind]. rewrite imap_app. do 3 f_equal.
    clear. induction b as [|[p n] b IH]; cbn; auto. f_equal. auto.
  - rewrite !map_length. reflexivity.
  - apply Forall_forall. intros x Hx. apply in_seq in Hx. lia.
  - rewrite map_length. lia.
  - rewrite Forall_map. auto.
Qed.

End Internal.

Lemma walkf_walk : forall num_seeds num_levels ncw rs cws idx p n col,
  length col = num_levels ->
  (forall l, (l < num_levels)%nat -> cget num_seeds num_levels ncw cws l idx
                                     = nth l col (0, (false, false))) ->
  walkf num_seeds num_levels ncw rs cws (seq 0 num_levels) idx p n
  = walk col (N.shiftr p (N.of_nat rs)) n.
Proof.
  intros num_seeds num_levels ncw rs cws idx p n col HL Hc. unfold walkf.
  transitivity (fold_left (fun n l => step (nth l col (0, (false, false)))
     (N.testbit (N.shiftr p (N.of_nat rs)) (N.of_nat (num_levels - l - 1))) n) (seq 0 num_levels) n).
  - assert (HS : Forall (fun l => (l < num_levels)%nat) (seq 0 num_levels)).
    { apply Forall_forall. intros x Hx. apply in_seq in Hx. lia. }
    revert n HS. generalize (seq 0 num_levels) as ls. induction ls as [|l ls IH]; intros n HS; auto.
    fcons HS Hl HS'. cbn [fold_left]. rewrite IH by auto. f_equal. rewrite Hc by auto.
    f_equal. unfold pbit. rewrite N.shiftr_spec'. f_equal. lia.
  - subst num_levels. clear. generalize (N.shiftr p (N.of_nat rs)) as q. intros q. revert n.
    induction col as [|c col IH]; intros n; auto.
    cbn [length seq fold_left walk]. rewrite <- seq_shift.
    rewrite <- IH. replace (S (length col) - 0 - 1)%nat with (length col) by lia.
    change (nth 0 (c :: col) (0, (false, false))) with c.
    set (m := step c _ n). clearbody m. clear IH. revert m.
    generalize (seq 0 (length col)) as ls.
    intros ls; induction ls as [|l ls' IHl]; intros m; [reflexivity|].
    cbn [map fold_left]. rewrite IHl. reflexivity.
Qed.

(** One correction per level: every seed walks with the same corrections. *)
Lemma evaluate_seeds_internal_shared : forall st paths rs cws, length paths = length st ->
  Forall (fun p => p < P128) paths ->
  evaluate_seeds_internal aes (length cws) (Z.of_nat (length cws)) st paths rs cws
  = Ok (zip2 (fun p n => walk cws (N.shiftr p (N.of_nat rs)) n) paths st).
Proof.
  intros st paths rs cws HL HF. unfold evaluate_seeds_internal.
  rewrite Z.eqb_refl. cbn [negb andb check bind].
  assert (HC : concat (chunks batch_size (combine paths st)) = combine paths st)
    by (apply concat_chunks; unfold batch_size; lia).
  rewrite walk_batches_spec; rewrite ?HC.
  - f_equal. rewrite zip2_combine, <- (imap_const _ _ _ _ 0). apply imap_ext.
    intros i [p n] Hi Hin. cbn [fst snd]. apply walkf_walk; auto.
    intros l Hl. unfold cget, ci. rewrite Z.ltb_irrefl. reflexivity.
  - intros. unfold ci. rewrite Z.ltb_irrefl. auto.
  - apply Forall_forall. intros [p n] Hin. apply in_combine_l in Hin.
    rewrite Forall_forall in HF. auto.
  - rewrite combine_length. lia.
Qed.

(** One correction per level and seed, level-major. *)
Lemma nth_concat_rect : forall A (rows : list (list A)) k l i d,
  Forall (fun r => length r = k) rows -> (i < k)%nat ->
  nth (l * k + i) (concat rows) d = nth i (nth l rows []) d.
Proof.
  induction rows as [|r rows IH]; intros k l i d HF Hi; cbn [concat].
  - replace (nth l (@nil (list A)) []) with (@nil A) by (destruct l; auto).
    destruct (l * k + i)%nat; destruct i; reflexivity.
  - fcons HF Hr HF'. destruct l as [|l].
    + cbn [nth Nat.mul Nat.add]. rewrite app_nth1 by lia. reflexivity.
    + rewrite app_nth2 by (cbn; nia). cbn [nth]. rewrite <- (IH k l i d) by auto.
      f_equal. rewrite Hr. cbn. lia.
Qed.

Lemma length_concat_rect : forall A (rows : list (list A)) k,
  Forall (fun r => length r = k) rows -> length (concat rows) = (length rows * k)%nat.
Proof.
  induction rows as [|r rows IH]; intros k HF; cbn; auto.
  fcons HF Hr HF'. rewrite app_length, Hr, (IH k) by auto. reflexivity.
Qed.

Lemma evaluate_seeds_internal_each : forall st paths rs (cols : list (list corr)) n,
  length paths = length st -> length cols = length st ->
  Forall (fun p => p < P128) paths -> Forall (fun c => length c = n) cols ->
  (0 < n)%nat ->
  evaluate_seeds_internal aes n (Z.of_nat n * Z.of_nat (length st)) st paths rs
    (concat (map (fun l => map (fun c => nth l c (0, (false, false))) cols) (seq 0 n)))
  = Ok (zip3 (fun col p nd => walk col (N.shiftr p (N.of_nat rs)) nd) cols paths st).
Proof.
  intros st paths rs cols n HL HLc HF HFc Hn. unfold evaluate_seeds_internal.
  rewrite Z.eqb_refl. rewrite andb_false_r. cbn [negb check bind].
  assert (HC : concat (chunks batch_size (combine paths st)) = combine paths st)
    by (apply concat_chunks; unfold batch_size; lia).
  set (rows := map _ (seq 0 n)).
  assert (Hrows : Forall (fun r => length r = length st) rows).
  { apply Forall_forall. intros r Hr. apply in_map_iff in Hr. destruct Hr as (l & <- & _).
    rewrite map_length. auto. }
  assert (Hlen : length (concat rows) = (n * length st)%nat).
  { rewrite (length_concat_rect _ _ (length st)) by auto. unfold rows.
    rewrite map_length, seq_length. reflexivity. }
  assert (Hci : forall l i, (l < n)%nat -> (i < length st)%nat ->
     ci (length st) n (Z.of_nat n * Z.of_nat (length st)) l i = (l * length st + i)%nat).
  { intros l i Hl Hi. unfold ci. destruct (Z.ltb_spec (Z.of_nat n) (Z.of_nat n * Z.of_nat (length st))); auto.
    assert (length st = 1%nat) by nia. rewrite H0 in *. lia. }
  rewrite walk_batches_spec; rewrite ?HC.
  - f_equal.
    assert (HX : forall i, (i < length st)%nat -> forall p nd,
      walkf (length st) n (Z.of_nat n * Z.of_nat (length st)) rs (concat rows) (seq 0 n) i p nd
      = walk (nth i cols []) (N.shiftr p (N.of_nat rs)) nd).
    { intros i Hi p nd. apply walkf_walk.
      - rewrite Forall_forall in HFc. apply HFc. apply nth_In. lia.
      - intros l Hl. unfold cget. rewrite Hci by auto.
        rewrite nth_concat_rect by auto. unfold rows.
        rewrite nth_map_seq by auto. rewrite (nth_map _ _ (fun c : list corr => nth l c (0, (false, false))) cols i _ []) by (rewrite HLc; exact Hi). reflexivity. }
    rewrite (imap_ext _ _ _ (fun i pn => walk (nth i cols []) (N.shiftr (fst pn) (N.of_nat rs)) (snd pn))).
    2:{ intros i a Hi _. apply HX. rewrite combine_length in Hi. lia. }
    clear - HL HLc. 
    assert (HG : forall pre, imap (fun i pn => walk (nth i (pre ++ cols) []) (N.shiftr (fst pn) (N.of_nat rs)) (snd pn))
      (length pre) (combine paths st)
      = zip3 (fun col p nd => walk col (N.shiftr p (N.of_nat rs)) nd) cols paths st).
    { revert paths st HL HLc. induction cols as [|c cols IH]; intros [|p paths] [|nd st] HL HLc pre;
        try discriminate; cbn [combine imap zip3]; auto.
      f_equal.
      - cbn [fst snd]. f_equal. rewrite app_nth2 by lia. rewrite Nat.sub_diag. reflexivity.
      - specialize (IH paths st ltac:(cbn in *; lia) ltac:(cbn in *; lia) (pre ++ [c])).
        rewrite app_length in IH. cbn [length] in IH. rewrite Nat.add_1_r in IH.
        rewrite <- app_assoc in IH. exact IH. }
    apply (HG []).
  - intros l i Hl Hi. rewrite Hci by auto.
    eapply Nat.lt_le_trans; [|apply Nat.eq_le_incl; symmetry; exact Hlen]. nia.
  - apply Forall_forall. intros [p nd] Hin. apply in_combine_l in Hin.
    rewrite Forall_forall in HF. auto.
  - rewrite combine_length. lia.
Qed.

(** EvaluateSeeds of the DPF class. *)
Lemma evaluate_seeds_walk : forall st paths cws, length paths = length st ->
  Forall (fun p => p < P128) paths ->
  evaluate_seeds aes st paths cws
  = Ok (zip2 (fun p n => walk (map corr_of cws) p n) paths st).
Proof.
  intros st paths cws HL HF. unfold evaluate_seeds.
  rewrite <- HL, Nat.eqb_refl. cbn [check bind].
  destruct (Nat.eqb_spec (length paths) 0) as [E|E].
  - cbn [orb]. destruct paths; [|discriminate]. destruct st; [|discriminate]. reflexivity.
  - cbn [orb]. destruct (Nat.eqb_spec (length cws) 0) as [E2|E2].
    + destruct cws; [|discriminate]. cbn [map walk].
      apply f_equal. clear - HL. revert st HL. induction paths as [|p paths IH]; intros [|n st] HL;
        cbn in *; try discriminate; auto. f_equal. apply IH. lia.
    + rewrite <- (map_length corr_of cws).
      rewrite evaluate_seeds_internal_shared by auto.
      apply f_equal. apply zip2_ext. intros. change (N.of_nat 0) with 0. rewrite N.shiftr_0_r. reflexivity.
Qed.

(** * ExpandSeeds *)

(** The numbers below 2^n in increasing order. *)
Definition below (n : nat) : list N := map N.of_nat (seq 0 (2 ^ n)).

Lemma expand_level_flat : forall cw st,
  expand_level aes cw st
  = flat_map (fun n => [step (corr_of cw) false n; step (corr_of cw) true n]) st.
Proof.
  intros cw st. unfold expand_level.
  transitivity (concat (map (flat_map (fun n => [step (corr_of cw) false n; step (corr_of cw) true n]))
     (chunks batch_size st))).
  - f_equal. apply map_ext. intros b. unfold expand_batch.
    rewrite !prg_evaluate_hash, !map_map. induction b as [|[s t] b IH]; cbn [map zip3 concat flat_map]; auto.
    rewrite IH. reflexivity.
  - rewrite <- (concat_chunks _ batch_size st) at 2 by (unfold batch_size; lia).
    generalize (chunks batch_size st) as l. induction l; cbn; auto.
    rewrite flat_map_app. f_equal; auto.
Qed.

Lemma below_S : forall n, below (S n) = below n ++ map (fun x => 2 ^ N.of_nat n + x) (below n).
Proof.
  intros n. unfold below. replace (2 ^ S n)%nat with (2 ^ n + 2 ^ n)%nat by (cbn; lia). rewrite seq_app, map_app. f_equal.
  cbn [Nat.add]. rewrite map_map.
  rewrite <- (Nat.add_0_r (2 ^ n)%nat) at 1.
  assert (H : forall k s m, seq (k + s) m = map (fun x => (k + x)%nat) (seq s m)).
  { intros k s m. revert s. induction m; intros s; cbn; auto. f_equal.
    rewrite <- (IHm (S s)). f_equal. lia. }
  rewrite H, map_map. apply map_ext. intros x.
  rewrite Nat2N.inj_add. f_equal. rewrite Nat2N.inj_pow. reflexivity.
Qed.

Lemma below_length : forall n, length (below n) = (2 ^ n)%nat.
Proof. intros. unfold below. rewrite map_length, seq_length. reflexivity. Qed.

Lemma below_lt : forall n x, In x (below n) -> x < 2 ^ N.of_nat n.
Proof.
  intros n x H. unfold below in H. apply in_map_iff in H. destruct H as (k & <- & Hk).
  apply in_seq in Hk. apply N.lt_le_trans with (N.of_nat (2 ^ n)); [lia|].
  rewrite Nat2N.inj_pow. reflexivity.
Qed.
Lemma below_nth_error : forall n i, (i < 2 ^ n)%nat -> nth_error (below n) i = Some (N.of_nat i).
Proof.
  intros n i H. unfold below. rewrite nth_error_map, nth_error_seq by auto. reflexivity.
Qed.

Lemma expand_flat : forall cws st,
  fold_left (fun s cw => expand_level aes cw s) cws st
  = flat_map (fun n => map (fun i => walk (map corr_of cws) i n) (below (length cws))) st.
Proof.
  induction cws as [|cw cws IH]; intros st; cbn [fold_left].
  - cbn. induction st; cbn; auto. f_equal; auto.
  - rewrite IH, expand_level_flat, flat_map_flat_map. apply flat_map_ext_in. intros n _.
    cbn [flat_map length map walk]. rewrite app_nil_r, below_S, map_app, map_length. f_equal.
    + apply map_ext_in. intros x Hx. apply below_lt in Hx.
      rewrite (testbit_lt_pow x (N.of_nat (length cws))) by (auto; lia). reflexivity.
    + rewrite map_map. apply map_ext_in. intros x Hx. apply below_lt in Hx.
      assert (HB : forall k, k < N.of_nat (length cws) ->
        N.testbit (2 ^ N.of_nat (length cws) + x) k = N.testbit x k).
      { intros k Hk. rewrite <- (N.mod_pow2_bits_low (2 ^ _ + x) (N.of_nat (length cws)) k) by auto.
        rewrite <- (N.mod_pow2_bits_low x (N.of_nat (length cws)) k) by auto. f_equal.
        rewrite N.add_comm. rewrite <- (N.mul_1_l (2 ^ _)) at 1. apply N.mod_add.
        apply N.pow_nonzero. lia. }
      replace (N.testbit (2 ^ N.of_nat (length cws) + x) (N.of_nat (length cws))) with true.
      * apply walk_ext. rewrite map_length. intros i Hi. symmetry. apply HB. lia.
      * symmetry. rewrite N.testbit_true.
        replace ((2 ^ N.of_nat (length cws) + x) / 2 ^ N.of_nat (length cws)) with 1; [reflexivity|].
        apply N.div_unique with x; auto. lia.
Qed.

End Aes.
