(** * Properties of the wiring spec (C01-C04) *)
From Verif Require Import Wiring_Model Wiring_Spec Wiring_Proof.

(** C01. After any history of calls a name is never both a definition and an alias, and the last
    call about the name decides which one it is. *)
Theorem C01_name_is_def_or_alias :
  ∀ {T B V : Type} (h : list (op T B V)) (n : string),
    (get_alias (run h) n = match last_about h n with Some (OAlias _ p) => Some p | _ => None end)
    ∧ (n ∈ defs (run h) ↔ ∃ o, last_about h n = Some o ∧ is_alias_op o = false)
    ∧ ¬ (n ∈ defs (run h) ∧ is_Some (get_alias (run h) n)).
Proof. intros T B V. exact kind_last_call. Qed.
Print Assumptions C01_name_is_def_or_alias.

Definition ex_history : list (op nat nat nat) :=
  [ODefine "svc" (Some 1) (Some 10) None 0; OAddProperty "svc" "mod" 7; OAlias "svc" "impl";
   ODefine "impl" (Some 2) (Some 20) None 0; OAddProperty "impl" "mod" 8; OAddProperty "impl" "mod" 9;
   ODefine "impl" (Some 3) (Some 30) None 1; OAlias "top" "svc"].

Example C01_nonvacuous :
  get_alias (run ex_history) "svc" = Some "impl" ∧ "impl" ∈ defs (run ex_history) ∧
  "svc" ∉ defs (run ex_history).
Proof. split_and!; [done | vm_compute; set_solver | vm_compute; set_solver]. Qed.

(** C02. The most recent Define of a name (since the name was last aliased) wins ... *)
Theorem C02_last_define_wins :
  ∀ {T B V : Type} (h1 : list (op T B V)) n t b o c h2 f,
    (∀ x, x ∈ h2 → ¬ (op_name x = n ∧ (is_define_op x = true ∨ is_alias_op x = true))) →
    ∃ d, get_def (S f) (run (h1 ++ ODefine n t b o c :: h2)) n = Some (Some d)
         ∧ wd_type d = t ∧ wd_build d = b.
Proof. intros T B V. exact last_define_wins. Qed.
Print Assumptions C02_last_define_wins.

(** ... every buildable definition comes from such a call ... *)
Theorem C02_definitions_come_from_define :
  ∀ {T B V : Type} (h : list (op T B V)) n d b f,
    n ∈ defs (run h) → get_def (S f) (run h) n = Some (Some d) → wd_build d = Some b →
    ∃ h1 t o c h2, h = h1 ++ ODefine n t (Some b) o c :: h2 ∧ wd_type d = t ∧ wd_name d = n ∧
      (∀ x, x ∈ h2 → ¬ (op_name x = n ∧ (is_define_op x = true ∨ is_alias_op x = true))).
Proof. intros T B V. exact def_source. Qed.
Print Assumptions C02_definitions_come_from_define.

(** ... and calls about other names change nothing about [n]. *)
Theorem C02_calls_are_independent :
  ∀ {T B V : Type} (h : list (op T B V)) (o : op T B V) (n : string),
    op_name o ≠ n →
    get_alias (run (h ++ [o])) n = get_alias (run h) n ∧
    (n ∈ defs (run (h ++ [o])) ↔ n ∈ defs (run h)) ∧
    (∀ k, get_properties (run (h ++ [o])) n k = get_properties (run h) n k) ∧
    (∀ f, n ∈ defs (run h) → get_def (S f) (run (h ++ [o])) n = get_def (S f) (run h) n).
Proof. intros T B V. exact call_frame. Qed.
Print Assumptions C02_calls_are_independent.

Example C02_nonvacuous :
  ∃ d, get_def 3 (run ex_history) "impl" = Some (Some d) ∧ wd_build d = Some 30 ∧ wd_type d = Some 3.
Proof. eexists. split; [vm_compute; reflexivity|]. split; reflexivity. Qed.

(** C03. Properties read back as the calls since the last SetProperty/Alias say; Define keeps them.
    The key "callsite" is reserved: Define overwrites it. *)
Theorem C03_properties_follow_history :
  ∀ {T B V : Type} (h : list (op T B V)) n k,
    k ≠ "callsite" → n ∈ defs (run h) →
    get_properties (run h) n k = Some (expected_props h n k) ∧
    get_property (run h) n k =
      Some (match expected_props h n k with [v] => Some v | _ => None end).
Proof. intros T B V. exact properties_of_history. Qed.
Print Assumptions C03_properties_follow_history.

Theorem C03_properties_absent :
  ∀ {T B V : Type} (h : list (op T B V)) n k,
    n ∉ defs (run h) → get_properties (run h) n k = None ∧ get_property (run h) n k = None.
Proof. intros T B V. exact properties_absent. Qed.
Print Assumptions C03_properties_absent.

Example C03_nonvacuous :
  get_properties (run ex_history) "impl" "mod" = Some [8; 9] ∧
  "impl" ∈ defs (run ex_history) ∧
  expected_props (ex_history ++ [OSetProperty "impl" "mod" 5]) "impl" "mod" = [5].
Proof. split_and!; [reflexivity | vm_compute; set_solver | reflexivity]. Qed.

(** Finding: a property set on an alias does not reach the aliased definition. It silently turns
    the alias into a definition that has no build function. *)
Theorem C03_set_property_through_alias_refuted :
  ¬ (∀ (h : list (op nat nat nat)) a n k v,
       get_alias (run h) a = Some n → n ∈ defs (run h) →
       get_properties (run (h ++ [OSetProperty a k v])) n k = Some [v]).
Proof.
  intros H. specialize (H [ODefine "n" None None None 0; OAlias "a" "n"] "a" "n" "k" 1).
  assert (Some ([] : list nat) = Some [1]) as E; [|discriminate].
  apply H; [reflexivity | vm_compute; set_solver].
Qed.
Print Assumptions C03_set_property_through_alias_refuted.

(** C04. GetDef follows the alias chain to its end; it terminates iff there is no alias cycle. *)
Theorem C04_alias_resolution :
  ∀ {T B V : Type} (s : spec T B V) n,
    (∀ m, alias_end s n m → ∃ N, ∀ f, N ≤ f → get_def f s n = Some (sp_defs s !! m)) ∧
    ((∃ m, alias_end s n m) ∨ alias_cycle s n) ∧
    (alias_cycle s n → ∀ f, get_def f s n = None).
Proof. intros T B V. exact resolve_correct. Qed.
Print Assumptions C04_alias_resolution.

Example C04_nonvacuous_chain : alias_end (run ex_history) "top" "impl".
Proof. eapply alias_end_next; [reflexivity|]. eapply alias_end_next; [reflexivity|].
  by apply alias_end_here. Qed.

(** Finding: a cycle is accepted by Alias without complaint and makes GetDef diverge. *)
Theorem C04_alias_terminates_refuted :
  ∃ (h : list (op nat nat nat)) n, alias_cycle (run h) n ∧ ∀ f, get_def f (run h) n = None.
Proof.
  assert (alias_cycle (run [OAlias "a" "b"; OAlias "b" "a"] : spec nat nat nat) "a") as Hc.
  { exists "a". split; [by left|]. eapply alias_path_more; [reflexivity|]. by apply alias_path_one. }
  exists [OAlias "a" "b"; OAlias "b" "a"], "a". split; [exact Hc|].
  exact (proj2 (proj2 (resolve_correct _ _)) Hc).
Qed.
Print Assumptions C04_alias_terminates_refuted.
