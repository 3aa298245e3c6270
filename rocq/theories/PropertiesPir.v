(** Properties of the dense PIR protocol: C30-C36.  See PirSpec.v for the vocabulary. *)
From Coq Require Import List NArith ZArith Lia Bool ZifyBool ZifyNat ZifyN.
From Verif Require Import Base ListUtil ValueTypesModel ValueTypesProofs HwyProofs PirDbModel PirSpec PirDbProofs
  PirIpProofs PirBuildProofs.
Import ListNotations.
Ltac Zify.zify_post_hook ::= Z.div_mod_to_equations.
Open Scope N_scope.

(** ** C30: the inner product is the XOR of the selected records *)

(** For every target (vector width, recursion depth, alignment), all addresses of records
    and result buffers, and any number of selection vectors.  What is missing from the
    property: selection vectors with more than 2^25 blocks (2^24 for the scalar code), see
    [C30_refuted] and [C30_scalar_refuted]. *)
Theorem C30_inner_product_partial : forall t values selections nb max,
  target_ok t ->
  Forall (fun s => length s = nb) selections -> (length values <= nb * 128)%nat ->
  (Z.of_nat nb <= if t_scalar t || Nat.ltb (t_log_lanes t) 4 then 16777216 else 33554432)%Z ->
  (Z.of_nat (length values) < 2147483648)%Z -> (0 < max)%Z ->
  Forall (fun v => is_bytes (v_data v) /\ (Z.of_nat (length (v_data v)) <= max)%Z /\
                   (Z.of_nat (length (v_data v)) < 2147483648)%Z) values ->
  inner_product t values selections max
  = Ok (map (selected_xor (map v_data values) (Z.to_nat max)) selections).
Proof.
  intros t values selections nb max HT Hnb Hcov Hbl Hlen Hmax Hvals.
  destruct selections as [|s0 rest] eqn:ES; [reflexivity|]. rewrite <- ES in *.
  apply (ip_ok t values selections nb max); auto.
  - rewrite ES. discriminate.
  - destruct (t_scalar t || Nat.ltb (t_log_lanes t) 4); lia.
  - eapply Forall_impl; [|exact Hvals]. cbn beta. intros v (H1 & H2 & H3). repeat split; auto.
    change (2 ^ 31) with 2147483648. lia.
  - unfold vector_target. destruct (t_scalar t); cbn [orb] in *; [right; assumption|].
    destruct (Nat.ltb_spec (t_log_lanes t) 4); [right; assumption|left]. auto.
Qed.
Print Assumptions C30_inner_product_partial.

(** Unequal or short selection vectors, a non-positive size and records that are too long
    are rejected, whatever the rest of the arguments is. *)
Theorem C30_rejects : forall t values selections max, selections <> [] ->
  (Z.of_nat (length (hd [] selections)) < 2147483648)%Z ->
  (exists s, In s selections /\ (Z.of_nat (length s) * 128 < Z.of_nat (length values))%Z) \/
  (exists s, In s selections /\ length s <> length (hd [] selections)) \/
  (max <= 0)%Z \/
  (exists v, In v values /\ (max < Z.of_nat (length (v_data v)))%Z) ->
  inner_product t values selections max = Err INVALID_ARGUMENT.
Proof.
  intros t values selections max Hne H31 Hbad. unfold inner_product.
  destruct selections as [|s0 rest] eqn:ES; [congruence|]. rewrite <- ES in *.
  assert (E0 : hd [] selections = s0) by (rewrite ES; reflexivity). rewrite E0 in *. cbn zeta.
  rewrite to_int32_small by lia.
  assert (HI : forall A (f : A -> res unit) l, (forall x, f x = Ok tt \/ f x = Err INVALID_ARGUMENT) ->
    iterM f l = Ok tt \/ iterM f l = Err INVALID_ARGUMENT).
  { clear. intros A f l H. induction l as [|x l IH]; cbn [iterM]; [auto|]. destruct (H x) as [->| ->]; cbn [bind]; auto. }
  assert (HX : forall A (f : A -> res unit) l x, (forall x, f x = Ok tt \/ f x = Err INVALID_ARGUMENT) -> In x l ->
    f x = Err INVALID_ARGUMENT -> iterM f l = Err INVALID_ARGUMENT).
  { clear. intros A f l x H Hin Hx. induction l as [|y l IH]; [destruct Hin|]. cbn [iterM].
    destruct (H y) as [Hy|Hy]; rewrite Hy; cbn [bind]; [|reflexivity]. destruct Hin as [->|Hin]; [congruence|auto]. }
  match goal with |- (_ <- iterM ?f selections ;; _) = _ => set (f1 := f) end.
  assert (H1 : forall s, f1 s = Ok tt \/ f1 s = Err INVALID_ARGUMENT).
  { intros s. unfold f1. destruct (negb _); cbn [check bind]; auto. destruct (_ =? _)%Z; cbn [check bind]; auto.
    destruct (0 <? max)%Z; cbn [check]; auto. }
  destruct Hbad as [(s & Hs & Hl)|[(s & Hs & Hl)|[Hm|(v & Hv & Hl)]]].
  - rewrite (HX _ f1 selections s H1 Hs); [reflexivity|]. unfold f1. rewrite (proj2 (Z.ltb_lt _ _) Hl). reflexivity.
  - rewrite (HX _ f1 selections s H1 Hs); [reflexivity|]. unfold f1. destruct (negb _); cbn [check bind]; [|reflexivity].
    rewrite Z.mod_small by lia. destruct (Z.eqb_spec (Z.of_nat (length s)) (Z.of_nat (length s0))); [lia|reflexivity].
  - rewrite (HX _ f1 selections s0 H1); [reflexivity|rewrite ES; left; reflexivity|]. unfold f1.
    destruct (negb _); cbn [check bind]; auto. destruct (_ =? _)%Z; cbn [check bind]; auto.
    destruct (Z.ltb_spec 0 max); [lia|reflexivity].
  - destruct (HI _ f1 selections H1) as [-> | ->]; cbn [bind]; [|reflexivity].
    match goal with |- (_ <- iterM ?f values ;; _) = _ => rewrite (HX _ f values v) end; [reflexivity| |assumption|].
    + intros w. destruct (_ <=? _)%Z; cbn [check]; auto.
    + destruct (Z.leb_spec (Z.of_nat (length (v_data v))) max); [lia|reflexivity].
Qed.
Print Assumptions C30_rejects.

(** A target with 16-byte vectors. *)
Definition xt_t : target :=
  {| t_scalar := false; t_log_lanes := 4; t_depth := 4; t_align := 64; t_haddr := fun k => 64 * N.of_nat (3 * k);
     t_saddr := fun k => 5 + N.of_nat k |}.
Lemma xt_t_ok : target_ok xt_t.
Proof.
  split; [cbn; lia|reflexivity|reflexivity|]. intros k. cbn [t_haddr t_align xt_t]. rewrite N.mul_comm. apply N.mod_mul. discriminate.
Qed.

(** With 2^25 + 1 blocks, the int index of InnerProductHwy wraps around: selecting an index
    far beyond the end of the database returns the first record. *)
Theorem C30_refuted : exists t values selections max,
  target_ok t /\ (length values <= length (hd [] selections) * 128)%nat /\ length selections = 1%nat /\
  Forall (fun v => is_bytes (v_data v) /\ (Z.of_nat (length (v_data v)) <= max)%Z) values /\
  inner_product t values selections max = Ok [[7]] /\
  map (selected_xor (map v_data values) (Z.to_nat max)) selections = [[0]].
Proof.
  assert (HM : exists m, Z.of_nat m = 33554432%Z) by (exists (Z.to_nat 33554432); apply Z2Nat.id; discriminate).
  destruct HM as (m & HM).
  set (s := repeat 0 m ++ [1]). set (v := {| v_addr := 0; v_data := [7] |}).
  assert (Ls : length s = S m) by (unfold s; rewrite app_length, repeat_length; cbn [length]; lia).
  assert (Hs : forall i, nth i s 0 = if Nat.eqb i m then 1 else 0).
  { intros i. unfold s. destruct (Nat.eqb_spec i m) as [->|Hi].
    - rewrite app_nth2 by (rewrite repeat_length; lia). rewrite repeat_length, Nat.sub_diag. reflexivity.
    - destruct (Nat.lt_ge_cases i m).
      + rewrite app_nth1 by (rewrite repeat_length; assumption). apply nth_zeros.
      + rewrite nth_overflow; [reflexivity|]. rewrite app_length, repeat_length. cbn [length]. lia. }
  exists xt_t, [v], [s], 1%Z. split; [exact xt_t_ok|]. cbn [hd]. rewrite Ls.
  split; [cbn [length]; lia|]. split; [reflexivity|].
  assert (HV : Forall (fun v => (Z.of_nat (length (v_data v)) <= 1)%Z /\ is_bytes (v_data v) /\
     N.of_nat (length (v_data v)) < 2 ^ 31) [v]).
  { repeat constructor; cbn; lia. }
  split; [eapply Forall_impl; [|exact HV]; cbn beta; intuition|]. split.
  - rewrite (ip_hwy_general xt_t [v] [s] (S m) 1).
    + change (seq 0 (Z.to_nat 1)) with [0%nat]. cbn [map v_data v]. do 3 f_equal.
      rewrite (xor_all_single _ _ (seq 0 (S m)) m).
      * unfold hwy_contrib. rewrite HM. change (to_int32 (33554432 * 128)) with 0%Z. cbn [Z.ltb Z.compare Z.to_nat].
        unfold contrib. rewrite (xor_all_single _ _ (seq 0 128) 0%nat).
        -- unfold bit_of. rewrite Hs, Nat.eqb_refl. reflexivity.
        -- apply seq_NoDup.
        -- apply in_seq. lia.
        -- intros j _ Hj. unfold bit_of. rewrite Hs, Nat.eqb_refl.
           replace (N.testbit 1 (N.of_nat j)) with false; [reflexivity|]. symmetry. apply N.bits_above_log2. change (N.log2 1) with 0. lia.
      * apply seq_NoDup.
      * apply in_seq. lia.
      * intros i _ Hi. unfold hwy_contrib. cbn zeta. destruct (_ <? _)%Z; [reflexivity|]. unfold contrib. apply xor_all_zero.
        intros j _. unfold bit_of. rewrite Hs. destruct (Nat.eqb_spec i m); [contradiction|]. rewrite N.bits_0. reflexivity.
    + exact xt_t_ok.
    + discriminate.
    + repeat constructor. assumption.
    + lia.
    + cbn [length]. lia.
    + reflexivity.
    + reflexivity.
    + exact HV.
    + split; [reflexivity|cbn; lia].
  - cbn [map v_data v]. unfold selected_xor. cbn [length seq map Z.to_nat Pos.to_nat Pos.iter_op]. do 3 f_equal.
    unfold selected. rewrite Hs. change (Nat.div 0 128) with 0%nat. destruct (Nat.eqb_spec 0 m); [lia|reflexivity].
Qed.
Print Assumptions C30_refuted.
(** The scalar code computes the same index with a signed overflow. *)
Theorem C30_scalar_refuted : exists t values selections max,
  target_ok t /\ t_scalar t = true /\ (length values <= length (hd [] selections) * 128)%nat /\ length selections = 1%nat /\
  Forall (fun v => is_bytes (v_data v) /\ (Z.of_nat (length (v_data v)) <= max)%Z) values /\
  inner_product t values selections max = UB.
Proof.
  assert (HM : exists m, Z.of_nat m = 16777217%Z) by (exists (Z.to_nat 16777217); apply Z2Nat.id; discriminate).
  destruct HM as (m & HM).
  set (t := {| t_scalar := true; t_log_lanes := 0; t_depth := 0; t_align := 16; t_haddr := fun _ => 0; t_saddr := fun _ => 0 |}).
  exists t, [{| v_addr := 0; v_data := [7] |}], [repeat 0 m], 1%Z.
  split; [split; cbn; auto; lia|]. split; [reflexivity|]. cbn [hd]. rewrite repeat_length.
  split; [cbn [length]; lia|]. split; [reflexivity|]. split; [repeat constructor; cbn; lia|].
  rewrite (inner_product_reduces t _ _ m 1).
  - unfold inner_product_hwy. cbn [t_scalar t orb]. apply (no_hwy_overflow t _ _ m).
    + repeat constructor. apply repeat_length.
    + repeat constructor; cbn; lia.
    + discriminate.
    + reflexivity.
    + lia.
  - discriminate.
  - repeat constructor. apply repeat_length.
  - lia.
  - cbn [length]. lia.
  - reflexivity.
  - reflexivity.
  - repeat constructor; cbn; lia.
Qed.
Print Assumptions C30_scalar_refuted.

(** Records of 0 to 50 bytes at odd and aligned addresses, two selection vectors. *)
Definition xi_rec (n : nat) (addr : N) : view :=
  {| v_addr := addr; v_data := map (fun i => N.of_nat (i * 37 + n * 11) mod 256) (seq 0 n) |}.
Definition xi_values : list view := map (fun k => xi_rec (Nat.modulo (k * 7) 51) (N.of_nat k * (if Nat.even k then 64 else 13))) (seq 0 200).
Definition xi_sels : list (list N) := [[2 ^ 127 + 5; 2 ^ 64 + 17]; [12345678901234567890123; 2 ^ 71 + 2 ^ 70 - 9]].
Example C30_nonvacuous :
  inner_product xt_t xi_values xi_sels 50 = Ok (map (selected_xor (map v_data xi_values) 50) xi_sels) /\
  nth 0 (map (selected_xor (map v_data xi_values) 50) xi_sels) [] <> repeat 0 50 /\
  inner_product xt_t xi_values xi_sels 49 = Err INVALID_ARGUMENT /\
  (exists s, In s xi_sels /\ N.testbit (nth 1 s 0) 4 = true).
Proof.
  split; [|split; [|split]].
  - change 50%nat with (Z.to_nat 50). apply (C30_inner_product_partial xt_t xi_values xi_sels 2 50).
    + exact xt_t_ok.
    + repeat constructor.
    + vm_compute. lia.
    + vm_compute. discriminate.
    + reflexivity.
    + reflexivity.
    + apply Forall_forall. intros v Hv. unfold xi_values in Hv. apply in_map_iff in Hv. destruct Hv as (k & <- & _).
      unfold xi_rec. cbn [v_data]. rewrite map_length, seq_length. split; [|pose proof (Nat.mod_upper_bound (k * 7) 51 ltac:(discriminate)); lia].
      apply Forall_forall. intros x Hx. apply in_map_iff in Hx. destruct Hx as (i & <- & _). apply N.mod_lt. discriminate.
  - vm_compute. discriminate.
  - vm_compute. reflexivity.
  - eexists. split; [left; reflexivity|]. vm_compute. reflexivity.
Qed.

(** ** C31: dense database builder histories *)

(** Every Build in every history of calls on any number of builders returns exactly the
    values inserted since creation or the last Clear, or FAILED_PRECONDITION if the builder
    has been built since then.  In particular, Build never fails with INTERNAL. *)
Theorem C31_builder_histories : forall ops,
  history_bytes ops < 2 ^ 62 -> allocs_ok ops -> Forall2 agrees (brun [] ops) (grun [] ops).
Proof. intros ops H1 H2. apply (brun_sim ops 0); auto. Qed.
Print Assumptions C31_builder_histories.

Definition xa_alloc : alloc := {| a_cap := fun n => n; a_head := 4096; a_realloc := fun h => h + 16 |}.
Definition xb_ops : list bop :=
  [BNew; BInsert 0 [1; 2; 3]; BInsert 0 []; BInsert 0 (repeat 9 17); BClone 0; BBuild 0 xa_alloc; BBuild 0 xa_alloc;
   BInsert 1 [4]; BBuild 1 xa_alloc; BClone 1; BBuild 2 xa_alloc; BClear 1; BInsert 1 [5; 6]; BBuild 1 xa_alloc; BBuild 7 xa_alloc].
Example C31_nonvacuous :
  history_bytes xb_ops < 2 ^ 62 /\ allocs_ok xb_ops /\
  grun [] xb_ops = [GNone; GNone; GNone; GNone; GNone; GRecords [[1; 2; 3]; []; repeat 9 17]; GAlready;
    GNone; GRecords [[1; 2; 3]; []; repeat 9 17; [4]]; GNone; GAlready; GNone; GNone; GRecords [[5; 6]]; GNone] /\
  match nth 5 (brun [] xb_ops) None with
  | Some (Ok d) => content d = Ok [{| v_addr := 4096; v_data := [1; 2; 3] |}; {| v_addr := 0; v_data := [] |};
                                   {| v_addr := 4112; v_data := repeat 9 17 |}]
  | _ => False
  end.
Proof.
  split; [reflexivity|]. split; [|split; vm_compute; reflexivity].
  intros i a H. unfold xb_ops in H. cbn [In] in H.
  repeat (destruct H as [H|H]; [first [discriminate | inversion H; subst; intros n; cbn; lia]|]). destruct H.
Qed.
