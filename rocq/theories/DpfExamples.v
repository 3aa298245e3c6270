(** A concrete DPF, key pairs and contexts, used to show that the hypotheses of the
    theorems can be met. *)
From Coq Require Import List NArith ZArith QArith Lia Bool ZifyBool ZifyNat ZifyN.
From Verif Require Import Base ListUtil ValueTypesModel ValueTypesSpec ValueTypesProofs
  ConvProofs BitsProofs TypeProofs DpfModel DpfTree DpfWf DpfGen DpfEval DpfPoint DpfCtx DpfApply
  DpfSpec DpfHist DpfReach DpfSafe DpfCreate DpfFacts PropertiesValueTypes.
Import ListNotations.
Ltac Zify.zify_post_hook ::= Z.div_mod_to_equations.
Open Scope N_scope.

Definition ex_aes (k x : N) : N :=
  N.land (0x9e3779b97f4b * x + 0xbf58476d1ce5 * k
          + N.lxor (N.shiftl x 71) (N.lxor (N.shiftr x 41) (N.shiftr k 23))) (N.ones 128).
Lemma ex_aes_lt : forall k x, ex_aes k x < 2 ^ 128.
Proof. intros k x. unfold ex_aes. rewrite N.land_ones. apply N.mod_lt. discriminate. Qed.
Definition ex_F : fops := {| f_add_log2 := fun s _ => s; f_gt_level := fun _ _ _ => false |}.
Definition ex_tuple : cty := TTup [TInt 16; TMod 32 1000003].
Definition ex_ps : list param :=
  [ {| p_ld := 2; p_vt := Some (PTInteger 8); p_sec := DFin 40 |};
    {| p_ld := 6; p_vt := Some (to_value_type ex_tuple); p_sec := DFin 40 |};
    {| p_ld := 9; p_vt := Some (PTInteger 64); p_sec := DFin 0 |} ].
Definition ex_types : list cty := [ex_tuple].
Definition ex_create (F : fops) (ps : list param) (types : list cty) : dpf :=
  match create_incremental F ps with
  | Ok d0 => fold_right register_value_type d0 types
  | _ => {| d_params := []; d_levels := 0; d_h2t := []; d_blocks := []; d_types := [] |}
  end.
Definition ex_d : dpf := Eval vm_compute in ex_create ex_F ex_ps ex_types.
Definition ex_alpha : N := 300.
Definition ex_beta : list pvalue :=
  [to_value (TInt 8) (VNum 7); to_value ex_tuple (VTup [VNum 1234; VNum 999999]); to_value (TInt 64) (VNum 42)].
Definition ex_keys : dkey * dkey :=
  Eval vm_compute in
  match generate_keys ex_aes ex_d ex_alpha ex_beta 0x0123456789abcdef0123456789abcdef 0xfedcba98765432100123456789abcdef with
  | Ok ks => ks
  | _ => ({| k_seed := None; k_cws := []; k_party := 0; k_last := [] |},
          {| k_seed := None; k_cws := []; k_party := 0; k_last := [] |})
  end.
Definition ex_k0 := fst ex_keys.
Definition ex_k1 := snd ex_keys.
Lemma ex_created : created ex_F ex_ps ex_types ex_d.
Proof.
  exists (ex_create ex_F ex_ps []). split; [vm_compute; reflexivity|]. split; [|vm_compute; reflexivity].
  repeat constructor.
Qed.
Lemma ex_generated : generate_keys ex_aes ex_d ex_alpha ex_beta
  0x0123456789abcdef0123456789abcdef 0xfedcba98765432100123456789abcdef = Ok (ex_k0, ex_k1).
Proof. vm_compute. reflexivity. Qed.
Ltac lden := match goal with |- denotes _ ?T => change (denotes (to_value_type T) T) end;
  apply to_value_type_denotes; reflexivity.
Ltac lhas := split; [reflexivity|]; eexists; split; [reflexivity|]; lden.
Lemma ex_level_0 : level_has ex_ps 0 (TInt 8).
Proof. lhas. Qed.
Lemma ex_level_1 : level_has ex_ps 1 ex_tuple.
Proof. lhas. Qed.
Lemma ex_level_2 : level_has ex_ps 2 (TInt 64).
Proof. lhas. Qed.

Lemma all_in : forall (l xs : list N), forallb (fun x => existsb (N.eqb x) l) xs = true -> Forall (fun x => In x l) xs.
Proof.
  intros l xs H. rewrite forallb_forall in H. apply Forall_forall. intros x Hx. specialize (H x Hx).
  apply existsb_exists in H. destruct H as (y & Hy & He). apply N.eqb_eq in He. subst. auto.
Qed.

(** A key that was not generated: arbitrary correction words and values. *)
Definition ex4_key : dkey :=
  {| k_seed := k_seed ex_k0;
     k_cws := map (fun cw => {| cw_seed := cw_seed cw + 12345; cw_left := negb (cw_left cw);
                                cw_right := cw_right cw; cw_values := cw_values cw |}) (k_cws ex_k1);
     k_party := 1; k_last := k_last ex_k0 |}.

Definition val_of (r : res (list cval) * ectx) : list cval := match fst r with Ok v => v | _ => [] end.
Definition ex5_c0 : ectx := Eval vm_compute in
  match create_evaluation_context ex_d ex4_key with Ok c => c | _ => {| c_params := []; c_key := None; c_prev := 0; c_partials := []; c_plevel := 0 |} end.
Definition ex5_c1 : ectx := Eval vm_compute in snd (evaluate_at_ctx ex_aes ex_d (TInt 8) 0 [2; 3; 2] ex5_c0).
Definition ex5_r1 := Eval vm_compute in val_of (evaluate_at_ctx ex_aes ex_d (TInt 8) 0 [2; 3; 2] ex5_c0).
Definition ex5_c2 : ectx := Eval vm_compute in snd (evaluate_until ex_aes ex_d ex_tuple 1 [3; 2] ex5_c1).
Definition ex5_r2 := Eval vm_compute in val_of (evaluate_until ex_aes ex_d ex_tuple 1 [3; 2] ex5_c1).
Lemma ex5_after0 : after ex_aes ex_d ex_ps ex4_key ex5_c0 None None.
Proof. apply after_create. vm_compute. reflexivity. Qed.
Lemma ex5_after1 : after ex_aes ex_d ex_ps ex4_key ex5_c1 (Some 0%nat) (Some (0%nat, [2; 3; 2])).
Proof.
  apply (after_at _ _ _ _ ex5_c0 None None 0 (TInt 8) [2; 3; 2] ex5_r1 ex5_c1);
    [exact ex5_after0|exact ex_level_0|discriminate|vm_compute; reflexivity].
Qed.
Lemma ex5_after2 : after ex_aes ex_d ex_ps ex4_key ex5_c2 (Some 1%nat) (Some (0%nat, [3; 2])).
Proof.
  apply (after_until _ _ _ _ ex5_c1 (Some 0%nat) (Some (0%nat, [2; 3; 2])) 1 ex_tuple [3; 2] ex5_r2 ex5_c2 ex5_after1).
  - reflexivity.
  - apply Forall_cons; [reflexivity|]. apply Forall_cons; [reflexivity|]. apply Forall_nil.
  - vm_compute. reflexivity.
Qed.
Definition ex3_ps : list param :=
  [ {| p_ld := 3; p_vt := Some (PTInteger 32); p_sec := DFin 40 |};
    {| p_ld := 7; p_vt := Some (PTInteger 32); p_sec := DFin 40 |} ].
Definition ex3_d : dpf := Eval vm_compute in ex_create ex_F ex3_ps [].
Definition ex3_pair (alpha b0 b1 : N) : gen_pair :=
  let beta := [to_value (TInt 32) (VNum b0); to_value (TInt 32) (VNum b1)] in
  match generate_keys ex_aes ex3_d alpha beta (2 ^ 100 + alpha) (2 ^ 90 + alpha) with
  | Ok (k0, k1) => {| gp_alpha := alpha; gp_beta := beta; gp_key0 := k0; gp_key1 := k1 |}
  | _ => {| gp_alpha := 0; gp_beta := []; gp_key0 := ex_k0; gp_key1 := ex_k1 |}
  end.
Definition ex3_gs : list gen_pair := Eval vm_compute in [ex3_pair 77 5 6; ex3_pair 127 8 9; ex3_pair 0 1 2].
Lemma ex3_created : created ex_F ex3_ps [] ex3_d.
Proof. exists ex3_d. split; [vm_compute; reflexivity|]. split; [constructor|vm_compute; reflexivity]. Qed.

