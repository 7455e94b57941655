(** * What a container image should be *)
From Verif Require Export Image_Model RunSh_Spec.
Open Scope string_scope.
Open Scope list_scope.

(** A name Docker takes for a build stage: it begins with a letter and has no spaces (CleanName leaves letters,
    digits, underscores and spaces). *)
Definition letter (c : ascii) : Prop := is_lower c = true ∨ is_upper c = true.
Definition stage_name (s : string) : Prop :=
  ∃ c r, list_ascii_of_string s = c :: r ∧ letter c ∧ " "%char ∉ c :: r.

Section image.
Context (E : env).
(** A process name that can be used: its clean form is a stage name, and neither "src" nor one of the root
    directories of the golang image. *)
Definition usable (n : string) : Prop :=
  stage_name (CleanName n) ∧ CleanName n ≠ "src" ∧ CleanName n ∉ e_golang E.

(** The image of a container with processes [ps] is built, and in it every process starts its own program. *)
Definition image_works (ps : list process) : Prop :=
  ∃ d r, image_of ps = Some d ∧ docker_build E d = Some r ∧ ∀ p, p ∈ ps → started r (pr_name p) = Some (pr_name p).
End image.
