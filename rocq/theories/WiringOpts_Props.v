(** * Properties of the options of wiring definitions (C02, continued) *)
From Verif Require Import Wiring_Model Wiring_Spec Wiring_Proof WiringOpts_Spec WiringOpts_Proof.

(** C02. The options GetDef reports are those of the last Define that passed any. *)
Theorem C02_options_follow_history :
  ∀ {T B V : Type} (h : list (op T B V)) n d f,
    n ∈ defs (run h) → get_def (S f) (run h) n = Some (Some d) →
    wo_proxy (wd_opts d) = proxy_newest_first (rev h) n ∧
    wo_ret (wd_opts d) = ret_newest_first (rev h) n.
Proof. intros T B V. exact options_of_history. Qed.
Print Assumptions C02_options_follow_history.

Definition ex_opts_history : list (op nat nat nat) :=
  [ODefine "impl" (Some 2) (Some 20) (Some (WOpts None true)) 0; OSetProperty "impl" "k" 1;
   ODefine "impl" (Some 3) (Some 30) None 1; ODefine "other" (Some 9) None (Some (WOpts (Some 8) false)) 0].

Example C02_options_nonvacuous :
  "impl" ∈ defs (run ex_opts_history) ∧
  ∃ d, get_def 3 (run ex_opts_history) "impl" = Some (Some d) ∧
       wo_proxy (wd_opts d) = true ∧ wo_ret (wd_opts d) = Some 2 ∧ wd_type d = Some 3.
Proof. split; [vm_compute; set_solver|]. eexists. split; [vm_compute; reflexivity|]. split_and!; reflexivity. Qed.

(** Finding: "by default [ReturnType] is assumed to be the same as nodeType" holds for the first
    Define of a name only; redefining it with another node type, and no options, keeps the return
    type of the first. *)
Theorem C02_return_type_defaults_to_node_type_refuted :
  ¬ (∀ (h : list (op nat nat nat)) n d,
       (∀ n' t b o c, ODefine n' t b o c ∈ h → o = None) →
       n ∈ defs (run h) → get_def 1 (run h) n = Some (Some d) → wo_ret (wd_opts d) = wd_type d).
Proof.
  intros Hall.
  pose (h := [ODefine "impl" (Some 2) (Some 20) None 0; ODefine "impl" (Some 3) (Some 30) None 0] : list (op nat nat nat)).
  assert (Hx : ∃ d, get_def 1 (run h) "impl" = Some (Some d) ∧ wo_ret (wd_opts d) = Some 2 ∧ wd_type d = Some 3)
    by (eexists; split; [vm_compute; reflexivity|]; split; reflexivity).
  destruct Hx as (d & Hd & Hr & Ht).
  specialize (Hall h "impl" d).
  feed specialize Hall; [ | vm_compute; set_solver | exact Hd | congruence].
  intros n' t b o c Hin. unfold h in Hin. rewrite !elem_of_cons, elem_of_nil in Hin. naive_solver.
Qed.
Print Assumptions C02_return_type_defaults_to_node_type_refuted.
