(** C87: evaluation contexts that are serialized and parsed between evaluations. *)
From Coq Require Import List NArith ZArith Bool QArith_base Qreduction Lia ZifyBool ZifyNat ZifyN.
From Verif Require Import Base ListUtil ValueTypesModel ValueTypesSpec ValueTypesProofs TypeProofs DpfModel DpfTree DpfWf DpfEval DpfSpec DpfCtx DpfFacts DpfHist DpfReach DpfExamples
  DpfPrivacySpec DpfPrivacy DpfHide PropertiesPrivacy PropertiesDpfApi PirModel PirSpec SparseModel WireModel KeyWireModel KeyWireSpec KeyWireProofs PropertiesKeyWire ContextWireModel ContextWireSpec ContextWireProofs.
Import ListNotations.
Open Scope N_scope.

(** ** All contexts *)

(** A context within the size limit is read back exactly, unless it is nested too deeply. *)
Theorem C87_context_exact : forall dbits dval limit c, context_ok dbits dval c -> N.of_nat (length (write_context dbits c)) <= max_size ->
  is_bytes (write_context dbits c) /\
  ((context_depth c <= limit)%nat -> parse_context dval limit (write_context dbits c) = Some c) /\
  ((limit < context_depth c)%nat -> parse_context dval limit (write_context dbits c) = None).
Proof.
  intros dbits dval limit c HC HF. split; [apply context_bytes|]. rewrite context_round by assumption.
  split; intros H; destruct (Nat.leb_spec (context_depth c) limit); try lia; reflexivity.
Qed.
Print Assumptions C87_context_exact.
(** Whatever bytes are parsed, the context has all fields in their ranges. *)
Theorem C87_parsed : forall dbits dval limit b c, (forall n, n < 2 ^ 64 -> double_ok dbits dval (dval n)) ->
  is_bytes b -> parse_context dval limit b = Some c -> context_ok dbits dval c.
Proof. intros dbits dval limit b c HD. apply context_parsed. exact HD. Qed.
Print Assumptions C87_parsed.

(** ** Contexts that calls produce *)
Lemma partial_params : forall aes d prefixes h u c st c', compute_partial_evaluations aes d prefixes h u c = Ok (st, c') -> c_params c' = c_params c.
Proof.
  intros aes d prefixes h u c st c' H. unfold compute_partial_evaluations in H. bind_inv H. bind_inv H. bind_inv H. destruct a1 as [st1 s1].
  bind_inv H. bind_inv H. inv H. reflexivity.
Qed.
Lemma perform_params : forall aes d k c, c_params (snd (perform aes d k c)) = c_params c.
Proof.
  intros aes d [T h prefixes|T h points] c; cbn [perform].
  - unfold evaluate_until. destruct (evaluate_until_checks d T h prefixes c); try reflexivity.
    destruct (build_prefix_map _ _ _ _) as [tis pm]. destruct (expand_and_update_context aes d (Z.to_nat h) tis c) as [e c'] eqn:E. cbn [snd].
    unfold expand_and_update_context in E. destruct (Nat.eqb (length tis) 0).
    + cbn iota in E. destruct (_ <- _ ;; _) in E; inv E; reflexivity.
    + destruct (compute_partial_evaluations aes d tis _ _ c) as [[st c1]| | |] eqn:EP; cbn [bind] in E; try (inv E; reflexivity).
      apply partial_params in EP. destruct (atz_or_ub _ _) as [s| | |]; cbn [bind] in E; try (inv E; reflexivity).
      destruct (_ <- _ ;; _) in E; inv E; exact EP.
  - unfold evaluate_at_ctx. destruct (evaluate_at_checks d (ctx_key c) (Z.of_nat h) points); try reflexivity.
    destruct (Nat.eqb (length points) 0); [reflexivity|]. destruct (compute_partial_evaluations _ _ _ _ _ _) as [[st c1]| | |] eqn:EP; try reflexivity.
    apply partial_params in EP. destruct (evaluate_at_finish _ _ _ _ _ _ _ _ _); exact EP.
Qed.
Lemma walk_bound : forall aes cs path n, on_blocks aes -> Forall (fun c : corr => fst c < 2 ^ 128) cs -> fst n < 2 ^ 128 -> fst (walk aes cs path n) < 2 ^ 128.
Proof.
  intros aes cs. induction cs as [|c cs IH]; intros path n HA HF Hn; [exact Hn|]. cbn [walk]. inversion HF as [|? ? Hc HF']; subst.
  apply IH; [exact HA|exact HF'|]. unfold step. cbn [fst]. apply clear_bound.
  destruct (snd n); [apply lxor_bound; [|exact Hc]|]; apply (hash_bound aes); exact HA.
Qed.
Lemma node_bound : forall aes key t x, on_blocks aes -> key_blocks key -> fst (node_at aes key t x) < 2 ^ 128.
Proof.
  intros aes key t x HA [H1 H2]. unfold node_at. apply walk_bound; [exact HA| |].
  - apply Forall_forall. intros c Hc. apply in_map_iff in Hc. destruct Hc as (cw & <- & Hin). assert (Hin' : In cw (k_cws key)) by (rewrite <- (firstn_skipn t (k_cws key)); apply in_or_app; left; exact Hin).
    exact (proj1 (Forall_forall _ _) H2 cw Hin').
  - unfold root, key_seed. cbn [fst]. destruct (k_seed key) as [s|]; [apply H1; reflexivity|reflexivity].
Qed.
Lemma levels_bound : forall d, wf d -> (nlevels d <= 129)%nat.
Proof.
  intros d W. assert (G : forall h, (h < nlevels d)%nat -> (h <= ld d h)%nat).
  { induction h as [|h IH]; intros Hh; [lia|]. pose proof (wf_ld_mono _ W h (S h) ltac:(lia) Hh). specialize (IH ltac:(lia)). lia. }
  pose proof (wf_pos _ W). specialize (G (nlevels d - 1)%nat ltac:(lia)).
  destruct (nth_error (d_params d) (nlevels d - 1)) as [p|] eqn:E; [|apply nth_error_None in E; unfold nlevels in *; lia].
  destruct (wf_ld_z _ W _ _ E) as [B1 B2]. lia.
Qed.

(** Which contexts any sequence of calls leads to, whether or not the calls succeed. *)
Section Reached.
Variables (dbits : dbl -> N) (dval : N -> dbl) (aes : N -> N -> N).
Variables (F : fops) (ps : list param) (types : list cty) (d : dpf).
Hypothesis HC : created F ps types d.
Hypothesis HTy : forall h, (h < length ps)%nat -> exists T, level_has ps h T.
Hypothesis HA : on_blocks aes.
Hypothesis HP : Forall (fun p => param_ok p /\ double_ok dbits dval (p_sec p)) (d_params d).
Variable key : dkey.
Hypothesis HK : dkey_ok key.

Lemma key_of_ok : key_blocks key.
Proof using HK.
  destruct HK as (K1 & K2 & _). split; [exact K1|]. eapply Forall_impl; [|exact K2]. intros cw [H _]. exact H.
Qed.
Lemma inv_ok : forall c, ctx_inv aes d key c -> c_params c = d_params d -> context_ok dbits dval c.
Proof using HC HA HP HK.
  intros c I EP. destruct (created_wf _ _ _ _ HC) as (W & _). pose proof (levels_bound d W) as LB.
  pose proof (inv_prev _ _ _ _ I) as B1. pose proof (inv_pl _ _ _ _ I) as B2.
  assert (Z31 : (2 ^ 31 = 2147483648)%Z) by reflexivity.
  constructor.
  - rewrite EP. exact HP.
  - intros k Hk. rewrite (inv_key _ _ _ _ I) in Hk. injection Hk as <-. exact HK.
  - unfold int32_ok. rewrite Z31. clear - B1 LB. lia.
  - eapply Forall_impl; [|exact (inv_partials _ _ _ _ I)]. intros e [E1 E2]. split.
    + eapply N.lt_le_trans; [exact E1|]. apply N.pow_le_mono_r; [discriminate|].
      pose proof (wf_h2t_ld _ W (lvl (c_plevel c)) ltac:(unfold lvl; clear - B2; lia)) as H1.
      destruct (nth_error (d_params d) (lvl (c_plevel c))) as [p|] eqn:E; [|apply nth_error_None in E; unfold lvl, nlevels in *; clear - E B2; lia].
      destruct (wf_ld_z _ W _ _ E) as [B3 B4]. clear - H1 B3 B4. lia.
    + replace (pe_seed e) with (fst (node_at aes key (h2t d (lvl (c_plevel c))) (pe_prefix e))) by (rewrite <- E2; reflexivity).
      apply node_bound; [exact HA|apply key_of_ok].
  - unfold int32_ok. rewrite Z31. clear - B2 LB. lia.
Qed.
Lemma perform_inv : forall k c, call_ok ps k -> ctx_inv aes d key c -> ctx_inv aes d key (snd (perform aes d k c)).
Proof using HC.
  intros k c HO I. destruct (created_wf _ _ _ _ HC) as (W & _). destruct k as [T h prefixes|T h points]; cbn [perform call_ok] in *.
  - destruct HO as [H1 H2]. destruct (evaluate_until aes d T h prefixes c) as [r c'] eqn:E. cbn [snd].
    eapply (until_ctx_or aes d W); eassumption.
  - destruct (evaluate_at_ctx aes d T (Z.of_nat h) points c) as [r c'] eqn:E. cbn [snd].
    eapply (at_ctx_or aes d W); [exact I| |exact E]. intros Hh. eapply level_has_type; [exact HC|]. apply HO. rewrite <- (created_len _ _ _ _ HC). exact Hh.
Qed.
Lemma results_inv : forall calls c, Forall (call_ok ps) calls -> ctx_inv aes d key c -> c_params c = d_params d ->
  Forall (fun rc => ctx_inv aes d key (snd rc) /\ c_params (snd rc) = d_params d) (results aes d calls c).
Proof using HC.
  induction calls as [|k calls IH]; intros c HO I EP; [constructor|]. inversion HO; subst. cbn [results].
  assert (I' := perform_inv k c ltac:(assumption) I). assert (EP' : c_params (snd (perform aes d k c)) = d_params d) by (rewrite perform_params; exact EP).
  constructor; [auto|]. apply IH; assumption.
Qed.
Lemma type_depths : forall t T, denotes t T -> (ptype_depth t <= S (type_depth T))%nat.
Proof using.
  clear. intros t. induction t using ptype_rect'; intros T HD; inversion HD; subst; cbn [ptype_depth type_depth]; try lia.
  - assert (G : (deepest ptype_depth els <= S (deepest type_depth ts))%nat).
    { match goal with HI : Forall _ els, HF0 : Forall2 denotes els ts |- _ => rename HI into IH; rename HF0 into HF end. clear - IH HF. revert ts HF. induction IH as [|t l Ht IH IH2]; intros ts HF; inversion HF; subst; [cbn; lia|].
      change (deepest ptype_depth (t :: l)) with (Nat.max (S (ptype_depth t)) (deepest ptype_depth l)).
      change (deepest type_depth (y :: l')) with (Nat.max (S (type_depth y)) (deepest type_depth l')).
      match goal with H : denotes t y |- _ => pose proof (Ht _ H) end. match goal with H : Forall2 denotes l l' |- _ => pose proof (IH2 _ H) end. lia. }
    lia.
  - match goal with |- context [vinteger_depth ?v] => destruct v end; cbn [vinteger_depth]; lia.
Qed.
Lemma depth_ok : forall c limit, c_key c = Some key -> c_params c = d_params d -> (S (key_depth key) <= limit)%nat ->
  (forall h T, level_has ps h T -> (3 + type_depth T <= limit)%nat) -> (context_depth c <= limit)%nat.
Proof using HC HTy.
  intros c limit EK EP H1 H2. unfold context_depth. rewrite EK, EP. destruct (created_wf _ _ _ _ HC) as (W & _).
  assert (D1 : (deepest param_depth (d_params d) <= limit)%nat).
  { apply deepest_le. apply Forall_forall. intros p Hp. apply In_nth_error in Hp. destruct Hp as [h Hh].
    assert (Hl : (h < length ps)%nat) by (rewrite <- (created_len _ _ _ _ HC); apply nth_error_Some; congruence).
    destruct (HTy h Hl) as [T HT]. pose proof (H2 _ _ HT) as H3. apply (level_has_type _ _ _ _ _ _ HC) in HT. destruct HT as (_ & p' & Hp' & HD).
    assert (p' = p) by congruence. subst p'. unfold param_depth. unfold p_type in HD. destruct (p_vt p) as [t|]; [|clear - H3; lia].
    apply type_depths in HD. clear - H3 HD. lia. }
  assert (D2 : (2 <= limit)%nat).
  { pose proof (wf_pos _ W) as HPos. destruct (HTy 0%nat ltac:(rewrite <- (created_len _ _ _ _ HC); exact HPos)) as [T HT]. specialize (H2 _ _ HT). clear - H2. lia. }
  assert (D3 : (deepest partial_depth (c_partials c) <= limit)%nat).
  { apply deepest_le. apply Forall_forall. intros e _. unfold partial_depth. exact D2. }
  clear - D1 D3 H1. lia.
Qed.
End Reached.

(** Every context after any sequence of calls on a valid key has all fields in range, and is nested
    no deeper than the key and the value types. *)
Theorem C87_reached : forall dbits dval aes F ps types d key c0 calls, created F ps types d ->
  (forall h, (h < length ps)%nat -> exists T, level_has ps h T) -> on_blocks aes ->
  Forall (fun p => param_ok p /\ double_ok dbits dval (p_sec p)) (d_params d) -> dkey_ok key ->
  create_evaluation_context d key = Ok c0 -> Forall (call_ok ps) calls ->
  Forall (fun c => context_ok dbits dval c /\
    (forall limit, (S (key_depth key) <= limit)%nat -> (forall h T, level_has ps h T -> (3 + type_depth T <= limit)%nat) -> (context_depth c <= limit)%nat))
    (c0 :: map snd (results aes d calls c0)).
Proof.
  intros dbits dval aes F ps types d key c0 calls HC HTy HA HP HK H0 HO. destruct (created_wf _ _ _ _ HC) as (W & _).
  destruct (create_context_inv aes d W key c0 (created_params_match _ _ _ _ HC HTy) H0) as (I & _ & _).
  assert (EP : c_params c0 = d_params d). { unfold create_evaluation_context in H0. bind_inv H0. inv H0. reflexivity. }
  assert (G : forall c, ctx_inv aes d key c /\ c_params c = d_params d -> context_ok dbits dval c /\
    (forall limit, (S (key_depth key) <= limit)%nat -> (forall h T, level_has ps h T -> (3 + type_depth T <= limit)%nat) -> (context_depth c <= limit)%nat)).
  { intros c [I1 E1]. split; [eapply inv_ok; eassumption|]. intros limit. eapply depth_ok; try eassumption. exact (inv_key _ _ _ _ I1). }
  constructor; [apply G; auto|]. apply Forall_map. eapply Forall_impl; [|eapply results_inv; eassumption]. intros rc. apply G.
Qed.
Print Assumptions C87_reached.

(** Programs that store the context between calls get the same results. *)
Lemma stored_same : forall (store : ectx -> bytes) load aes d calls c,
  Forall (fun c => load (store c) = Some c) (c :: map snd (results aes d calls c)) ->
  stored_results store load aes d calls (store c) = Some (map (fun rc => (fst rc, store (snd rc))) (results aes d calls c)).
Proof.
  intros store load aes d calls. induction calls as [|k calls IH]; intros c H; [reflexivity|]. cbn [stored_results results map].
  inversion H as [|? ? H1 H2]; subst. rewrite H1. cbn [results map] in H2. destruct (perform aes d k c) as [r c'] eqn:E. cbn [snd fst] in *.
  rewrite IH by exact H2. reflexivity.
Qed.
Theorem C87_stored : forall dbits dval limit aes F ps types d key c0 calls, created F ps types d ->
  (forall h, (h < length ps)%nat -> exists T, level_has ps h T) -> on_blocks aes ->
  Forall (fun p => param_ok p /\ double_ok dbits dval (p_sec p)) (d_params d) -> dkey_ok key ->
  create_evaluation_context d key = Ok c0 -> Forall (call_ok ps) calls ->
  (S (key_depth key) <= limit)%nat -> (forall h T, level_has ps h T -> (3 + type_depth T <= limit)%nat) ->
  Forall (fun c => N.of_nat (length (write_context dbits c)) <= max_size) (c0 :: map snd (results aes d calls c0)) ->
  stored_results (write_context dbits) (parse_context dval limit) aes d calls (write_context dbits c0)
  = Some (map (fun rc => (fst rc, write_context dbits (snd rc))) (results aes d calls c0)).
Proof.
  intros dbits dval limit aes F ps types d key c0 calls HC HTy HA HP HK H0 HO HL HT HS. apply stored_same.
  pose proof (C87_reached dbits dval aes F ps types d key c0 calls HC HTy HA HP HK H0 HO) as HR.
  apply Forall_forall. intros c Hc. destruct (proj1 (Forall_forall _ _) HR c Hc) as [R1 R2].
  apply C87_context_exact; [exact R1|exact (proj1 (Forall_forall _ _) HS c Hc)|]. apply R2; assumption.
Qed.
Print Assumptions C87_stored.
(** The same for generated keys. *)
Theorem C87_generated : forall dbits dval limit aes F ps types d alpha beta s0 s1 k0 k1 key c0 calls, created F ps types d ->
  (forall h, (h < length ps)%nat -> exists T, level_has ps h T) -> on_blocks aes ->
  Forall (fun p => param_ok p /\ double_ok dbits dval (p_sec p)) (d_params d) ->
  alpha < 2 ^ 128 -> s0 < 2 ^ 128 -> s1 < 2 ^ 128 -> generate_keys aes d alpha beta s0 s1 = Ok (k0, k1) -> key = k0 \/ key = k1 ->
  create_evaluation_context d key = Ok c0 -> Forall (call_ok ps) calls ->
  (forall h T, level_has ps h T -> (3 + type_depth T <= limit)%nat) ->
  Forall (fun c => N.of_nat (length (write_context dbits c)) <= max_size) (c0 :: map snd (results aes d calls c0)) ->
  stored_results (write_context dbits) (parse_context dval limit) aes d calls (write_context dbits c0)
  = Some (map (fun rc => (fst rc, write_context dbits (snd rc))) (results aes d calls c0)).
Proof.
  intros dbits dval limit aes F ps types d alpha beta s0 s1 k0 k1 key c0 calls HC HTy HA HP Ha H0 H1 HG Hk HE HO HT HS.
  destruct (C47_shape F ps types d HC _ _ _ _ _ _ _ Ha HG) as [S0 S1].
  destruct (C47_blocks F ps types d HC _ _ _ _ _ _ _ Ha HA H0 H1 HG) as [B0 B1].
  assert (HL : (3 <= limit)%nat). { destruct (ks_last _ _ _ _ S0) as (T & HT1 & _). specialize (HT _ _ HT1). lia. }
  assert (G : dkey_ok key /\ (key_depth key <= 2 + (limit - 3))%nat).
  { destruct Hk as [-> | ->]; eapply shape_fine; try eassumption; try (left; reflexivity); try (right; reflexivity); intros h T HT1; specialize (HT _ _ HT1); lia. }
  destruct G as [G1 G2]. eapply C87_stored; try eassumption. lia.
Qed.
Print Assumptions C87_generated.

(** ** Examples *)

(** Doubles as IEEE 754 defines them, and the bits of 0, infinity and positive normal numbers. *)
Definition ieee_val (n : N) : dbl :=
  let s := negb (N.testbit n 63) in let e := (n / 2 ^ 52) mod 2 ^ 11 in let m := n mod 2 ^ 52 in
  if e =? 2047 then if m =? 0 then DInf s else DNaN else
  let f := if e =? 0 then m else 2 ^ 52 + m in
  let x := Z.of_N (N.max e 1) in
  let z := if s then Z.of_N f else (- Z.of_N f)%Z in
  DFin (Qred (if (x <? 1075)%Z then Qmake z (Z.to_pos (2 ^ (1075 - x))) else Qmake (z * 2 ^ (x - 1075)) 1)).
Definition ieee_bits (x : dbl) : N :=
  match x with
  | DNaN => 2047 * 2 ^ 52 + 2 ^ 51
  | DInf p => 2047 * 2 ^ 52 + (if p then 0 else 2 ^ 63)
  | DFin q =>
      match Qnum q with
      | Zpos n => let k := N.log2 (N.pos n) in
                  (k + 1023 - N.log2 (N.pos (Qden q))) * 2 ^ 52 + (N.pos n - 2 ^ k) * 2 ^ 52 / 2 ^ k
      | _ => 0
      end
  end.
Example ieee_nonvacuous : ieee_bits (DFin (5 # 4)) = 0x3ff4000000000000 /\
  Forall (double_ok ieee_bits ieee_val) [DFin 0; DFin 1; DFin 40; DFin 49; DFin (5 # 4); DFin (7 # 1024); DInf true; DInf false; DNaN].
Proof. split; [reflexivity|]. repeat constructor. Qed.

Lemma level_has_fun : forall ps h T T', level_has ps h T -> level_has ps h T' -> T = T'.
Proof.
  intros ps h T T' (_ & p & Hp & D) (_ & p' & Hp' & D'). assert (p' = p) by congruence. subst p'. eapply denotes_fun; eassumption.
Qed.
(** A program with four successful calls (all prefixes, some prefixes, points) and two that are
    rejected (a level that does not exist, a prefix that is too large). *)
Definition ex_calls : list call :=
  [Until (TInt 8) 0 []; Until (TInt 64) 7 [1]; Until ex_tuple 1 [2; 0]; Until (TInt 64) 2 [64]; At ex_tuple 1 [37]; At (TInt 64) 2 [300; 301]].
Definition outcome (r : res (list cval)) : bool * nat := match r with Ok l => (true, length l) | _ => (false, 0%nat) end.
Example C87_generated_nonvacuous : exists c0,
  created ex_F ex_ps ex_types ex_d /\ (forall h, (h < length ex_ps)%nat -> exists T, level_has ex_ps h T) /\ on_blocks ex_aes /\
  Forall (fun p => param_ok p /\ double_ok ieee_bits ieee_val (p_sec p)) (d_params ex_d) /\
  generate_keys ex_aes ex_d ex_alpha ex_beta 0x0123456789abcdef0123456789abcdef 0xfedcba98765432100123456789abcdef = Ok (ex_k0, ex_k1) /\
  create_evaluation_context ex_d ex_k0 = Ok c0 /\ Forall (call_ok ex_ps) ex_calls /\ (forall h T, level_has ex_ps h T -> (3 + type_depth T <= 100)%nat) /\
  Forall (fun c => N.of_nat (length (write_context ieee_bits c)) <= max_size) (c0 :: map snd (results ex_aes ex_d ex_calls c0)) /\
  map (fun rc => outcome (fst rc)) (results ex_aes ex_d ex_calls c0) = [(true, 4); (false, 0); (true, 32); (false, 0); (true, 1); (true, 2)]%nat /\
  map (fun rc => (length (c_partials (snd rc)), c_prev (snd rc))) (results ex_aes ex_d ex_calls c0)
  = [(0%nat, 0%Z); (0%nat, 0%Z); (1%nat, 1%Z); (1%nat, 1%Z); (1%nat, 1%Z); (2%nat, 2%Z)].
Proof.
  eexists. split; [exact ex_created|].
  split. { intros [|[|[|h]]] H; [exists (TInt 8); exact ex_level_0|exists ex_tuple; exact ex_level_1|exists (TInt 64); exact ex_level_2|cbn in H; lia]. }
  split; [exact ex_on_blocks|].
  split. { repeat constructor; cbn; intros; try discriminate; inv H; vm_compute; repeat split; discriminate. }
  split; [exact ex_generated|]. split; [vm_compute; reflexivity|].
  split. { unfold ex_calls. repeat (apply Forall_cons || apply Forall_nil); unfold call_ok; try (intros _; first [exact ex_level_1|exact ex_level_2]); (split; [reflexivity|repeat constructor]). }
  split. { intros h T HT. destruct h as [|[|[|h]]].
    - rewrite (level_has_fun _ _ _ _ HT ex_level_0). cbn; lia.
    - rewrite (level_has_fun _ _ _ _ HT ex_level_1). cbn; lia.
    - rewrite (level_has_fun _ _ _ _ HT ex_level_2). cbn; lia.
    - destruct HT as (_ & p & Hp & _). destruct h; discriminate. }
  split. { repeat constructor; vm_compute; discriminate. }
  split; vm_compute; reflexivity.
Qed.

(** Not every string that parses can be used: partial_evaluations_level is not checked (C12). *)
Theorem C87_bytes_refuted : exists aes F ps types d T b c, created F ps types d /\ is_bytes b /\ level_has ps 1 T /\
  parse_context ieee_val 100 b = Some c /\ validate_evaluation_context d c = Ok tt /\
  fst (evaluate_until aes d T 1 [2] c) = UB /\ fst (evaluate_at_ctx aes d T 1 [2] c) = UB.
Proof.
  exists ex_aes, ex_F, ex_ps, ex_types, ex_d, ex_tuple, (write_context ieee_bits c12_ctx), c12_ctx.
  split; [exact ex_created|]. split. { apply context_bytes. } split; [exact ex_level_1|].
  repeat (split; [vm_compute; reflexivity|]). vm_compute. reflexivity.
Qed.
Print Assumptions C87_bytes_refuted.
(** Doubles for which the hypothesis of C87_parsed is easily seen. *)
Definition raw_bits (x : dbl) : N := match x with DFin q => Z.to_N (Qnum q) | _ => 0 end.
Definition raw_val (n : N) : dbl := DFin (inject_Z (Z.of_N n)).
Example C87_parsed_nonvacuous : (forall n, n < 2 ^ 64 -> double_ok raw_bits raw_val (raw_val n)) /\
  is_bytes (write_context raw_bits c12_ctx) /\ parse_context raw_val 100 (write_context raw_bits c12_ctx) = Some c12_ctx /\
  parse_context raw_val 3 (write_context raw_bits c12_ctx) = None.
Proof.
  split. { intros n Hn. unfold double_ok, raw_bits, raw_val. cbn [Qnum inject_Z]. rewrite N2Z.id. auto. }
  split; [apply context_bytes|]. split; vm_compute; reflexivity.
Qed.
