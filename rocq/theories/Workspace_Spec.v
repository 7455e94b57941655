(** * Vocabulary for C39, C51 and C52 *)
From Verif Require Export Workspace_Model.
Open Scope list_scope.

(** The module a call is about, and the directory it wants. *)
Definition op_module (o : wop) : option string :=
  match o with WCreate n _ _ => Some n | WLocal _ src _ _ => mf_path <$> src end.
Definition op_dir (o : wop) : string := match o with WCreate n _ _ => last_comp n | WLocal s _ _ _ => s end.

(** All calls succeeded. *)
Definition all_succeeded (xs : list (option string)) : Prop := ∀ x, x ∈ xs → is_Some x.

(** No generated module's last path component is the directory of another module that came before it. *)
Definition no_clash (os : list wop) : Prop :=
  ∀ i j o n a b, i < j → os !! i = Some o → os !! j = Some (WCreate n a b) → op_dir o ≠ last_comp n.
