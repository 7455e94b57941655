(** * Properties of the compiler command line (C54) *)
From Verif Require Import Cmd_Model Cmd_Spec Cmd_Proof.
From Coq Require Import Lia ZifyN ZifyNat.

(** C54. Artifacts are generated, into the -o directory, exactly for the IR that the selected spec,
    BuildIR and every analysis pass in order produced without an error. *)
Theorem C54_artifacts_iff_compiles :
  ∀ {SP E IR} (empty : SP) (build_ir : SP → list string → IR * option E)
    (generate : string → IR → option N → option E)
    (ps : list (pass SP E IR)) (specs : list (spec_option SP E)) (f : flags) d ir p,
    EvGenerate d ir p ∈ (make_and_execute empty build_ir generate ps specs f).2 ↔
    compiles empty build_ir ps specs f ir ∧ d = fl_o f ∧ p = port_of f.
Proof. intros SP E IR. exact generates_iff. Qed.
Print Assumptions C54_artifacts_iff_compiles.

(** The exit code says how far it got. *)
Theorem C54_exit_codes :
  ∀ {SP E IR} (empty : SP) (build_ir : SP → list string → IR * option E)
    (generate : string → IR → option N → option E)
    (ps : list (pass SP E IR)) (specs : list (spec_option SP E)) (f : flags),
    let code := (make_and_execute empty build_ir generate ps specs f).1 in
    (code = 0 ↔ ∃ ir, compiles empty build_ir ps specs f ir ∧ generate (fl_o f) ir (port_of f) = None) ∧
    (code = 1 ↔ fl_o f = "" ∨ fl_w f = "" ∨ ∀ s, s ∈ specs → so_name s ≠ fl_w f) ∧
    (code = 0 ∨ code = 1 ∨ code = 2).
Proof.
  intros. split_and!; [apply exit_zero_iff | apply exit_one_iff |].
  subst code. unfold make_and_execute. destruct (validate_args _); [|by right; left].
  destruct (build _ _ _ _) as [[] ?]; [by left|by right; right].
Qed.
Print Assumptions C54_exit_codes.

(** The stages run in order, each pass at most once, and all of them before artifacts appear. *)
Theorem C54_stages_in_order :
  ∀ {SP E IR} (empty : SP) (build_ir : SP → list string → IR * option E)
    (generate : string → IR → option N → option E)
    (ps : list (pass SP E IR)) (specs : list (spec_option SP E)) (f : flags),
    let evs := (make_and_execute empty build_ir generate ps specs f).2 in
    ∃ s nodes ir k, evs `prefix_of`
      ([EvSpec s; EvBuildIR nodes] ++ ((fun p => EvPass (pa_name p)) <$> take k ps) ++
       [EvGenerate (fl_o f) ir (port_of f)]) ∧
      ((∃ d i p, EvGenerate d i p ∈ evs) → k = length ps).
Proof. intros SP E IR. exact stages_in_order. Qed.
Print Assumptions C54_stages_in_order.

(** Passes registered one batch after the other run like one batch. *)
Theorem C54_registrations_accumulate :
  ∀ {SP E IR} (b : builder SP E IR) (ps qs : list (pass SP E IR)),
    register_passes (register_passes b ps) qs = register_passes b (ps ++ qs) ∧
    cb_passes (register_passes b ps) = cb_passes b ++ ps.
Proof. intros SP E IR [] ps qs. unfold register_passes. simpl. by rewrite app_assoc. Qed.
Print Assumptions C54_registrations_accumulate.

(** A -port that is a port number is used as it is. *)
Theorem C54_port_in_range : ∀ f, (fl_port f < 65536)%N → fl_env f = true → port_of f = Some (fl_port f).
Proof. intros f Hp He. unfold port_of. rewrite He, N.mod_small; done. Qed.
Print Assumptions C54_port_in_range.

(** Err returns all recorded errors in order, and nil only when there are none; recording an error
    changes nothing else. *)
Theorem C54_err_reports_all_errors :
  ∀ {SP E} (s : wspec SP E) es,
    ws_errs s = [] →
    err (add_errors s es) = (if bool_decide (length es = 0) then None else Some es) ∧
    ws_defs (add_errors s es) = ws_defs s.
Proof. intros SP E. exact err_of_history. Qed.
Print Assumptions C54_err_reports_all_errors.

(** Two specs under one name, and a pass that doubles the (numeric) IR. *)
Definition ex_so (n : string) (k : nat) (errs : list string) : spec_option nat string :=
  SpecOption n "" (fun w => (add_errors (WSpec k (ws_errs w)) errs, inr ["a"])).
Definition ex_bir (sp : nat) (nodes : list string) : nat * option string := (sp + length nodes, None).
Definition ex_gen (d : string) (ir : nat) (p : option N) : option string := None.
Definition ex_pass : pass nat string nat := Pass "double" (fun _ ir => (ir + ir, inr true)).

Example C54_nonvacuous :
  make_and_execute 0 ex_bir ex_gen [ex_pass; ex_pass] [ex_so "x" 1 []; ex_so "y" 2 []; ex_so "x" 4 []]
    (Flags "out" "x" true 12345) =
  (0, [EvSpec "x"; EvBuildIR ["a"]; EvPass "double"; EvPass "double"; EvGenerate "out" 20 (Some 12345%N)]).
Proof. vm_compute. reflexivity. Qed.

(** Finding: "the error will be returned by a call to Err or GetBlueprint" (wiring.go:63), but
    nothing on the way from a wiring spec to artifacts looks at the recorded errors: compilation
    succeeds although a plugin reported one. *)
Theorem C54_recorded_errors_stop_the_build_refuted :
  ¬ (∀ (specs : list (spec_option nat string)) f s w nodes,
       selects specs (fl_w f) s → so_build s (WSpec 0 []) = (w, inr nodes) → err w ≠ None →
       (make_and_execute 0 ex_bir ex_gen [] specs f).1 ≠ 0).
Proof.
  intros Hall.
  pose (s := ex_so "x" 1 ["cannot configure the uniqueness of a"]).
  apply (Hall [s] (Flags "out" "x" true 12345) s (so_build s (WSpec 0 [])).1 ["a"]); [|reflexivity|done|vm_compute; reflexivity].
  exists [], []. split_and!; [done|done|]. intros x Hx. by apply elem_of_nil in Hx.
Qed.
Print Assumptions C54_recorded_errors_stop_the_build_refuted.

(** Finding: a -port above 65535 is not rejected; its low 16 bits are used. *)
Theorem C54_port_validated_refuted :
  ∃ f, (fl_port f > 65535)%N ∧ port_of f = Some 4464%N ∧
       (make_and_execute 0 ex_bir ex_gen [] [ex_so "x" 1 []] f).1 = 0.
Proof. exists (Flags "out" "x" true 70000). split_and!; [done|reflexivity|vm_compute; reflexivity]. Qed.
Print Assumptions C54_port_validated_refuted.
