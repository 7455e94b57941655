(** * Specification vocabulary for the compiler command line *)
From Verif Require Export Cmd_Model.

Section spec.
  Context {SP E IR : Type}.

  (** [s] is the spec that the command line selects: the last one given under the name [w]. *)
  Definition selects (specs : list (spec_option SP E)) (w : string) (s : spec_option SP E) : Prop :=
    ∃ before after, specs = before ++ s :: after ∧ so_name s = w ∧ ∀ x, x ∈ after → so_name x ≠ w.

  (** All of [ps], run in the given order, succeed and take the IR from [ir] to [ir']. *)
  Inductive passes_succeed (w : wspec SP E) : list (pass SP E IR) → IR → IR → Prop :=
  | ps_nil ir : passes_succeed w [] ir ir
  | ps_cons p r ir ir1 ir2 m :
      pa_analyze p w ir = (ir1, inr m) → passes_succeed w r ir1 ir2 → passes_succeed w (p :: r) ir ir2.

  (** The compilation of the selected spec gets as far as generating artifacts for [ir]. *)
  Definition compiles (empty : SP) (build_ir : SP → list string → IR * option E)
      (ps : list (pass SP E IR)) (specs : list (spec_option SP E)) (f : flags) (ir : IR) : Prop :=
    fl_o f ≠ "" ∧ fl_w f ≠ "" ∧
    ∃ s w nodes ir0,
      selects specs (fl_w f) s ∧ so_build s (WSpec empty []) = (w, inr nodes) ∧
      build_ir (ws_defs w) nodes = (ir0, None) ∧ passes_succeed w ps ir0 ir.

  (** Ports are assigned unless -env=false, from the -port value as a uint16. *)
  Definition port_of (f : flags) : option N :=
    if fl_env f then Some (fl_port f `mod` 65536)%N else None.

  (** A history of AddError calls on a wiring spec. *)
  Definition add_errors (s : wspec SP E) (es : list E) : wspec SP E := fold_left add_error es s.
End spec.
