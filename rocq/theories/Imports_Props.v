(** * Properties of generated imports (C38) and of type names (C50) *)
From Verif Require Import Imports_Model Imports_Spec Imports_Proof.
From Coq Require Import Lia.

(** C38. After any sequence of calls the import declaration has one line for each package, none for the package
    of the file itself, and no name is bound to two packages. *)
Theorem C38_import_names_are_unique : ∀ loc os,
  let lines := import_lines (irun (new_imports loc) os) in
  NoDup lines.*2 ∧ loc ∉ lines.*2 ∧ ∀ n p p', binds lines n p → binds lines n p' → p = p'.
Proof.
  intros loc os. destruct (irun_spec os _ (iwf_new loc)) as [W [EL _]]. cbn in EL. cbn zeta. split_and!.
  - by apply lines_NoDup.
  - intros ([o p] & E & H)%elem_of_list_fmap. cbn in E. subst p.
    assert (∃ n, binds (import_lines (irun (new_imports loc) os)) n loc) as [n B].
    { destruct o as [n|]; [exists n; by left|exists (last_comp loc); by right]. }
    apply binds_packages in B; [|done]. pose proof (w_local _ W) as L. rewrite EL in L. congruence.
  - intros n p p'. rewrite !binds_packages by done. apply (w_inj _ W).
Qed.
Print Assumptions C38_import_names_are_unique.

(** Adding a package returns the name that the import declaration binds to it, then and after any further calls;
    adding it again returns the same name and changes nothing. *)
Theorem C38_import_names_are_stable : ∀ loc os pkg im name os',
  add_package (irun (new_imports loc) os) pkg = (im, name) → pkg ≠ loc →
  (∀ n, binds (import_lines (irun im os')) n pkg ↔ n = name) ∧ add_package (irun im os') pkg = (irun im os', name).
Proof.
  intros loc os pkg im name os' H NL.
  destruct (irun_spec os _ (iwf_new loc)) as [W [EL _]]. cbn in EL.
  destruct (add_package_spec _ _ _ _ W H) as (W1 & X1 & D & _). destruct D as [(E & _)|[_ D]]; [congruence|].
  destruct (irun_spec os' _ W1) as [W2 X2].
  pose proof (lookup_weaken _ _ _ _ D (e_packages _ _ X2)) as D'. split.
  - intros n. rewrite binds_packages by done. rewrite D'. split; congruence.
  - unfold add_package. rewrite D'. case_bool_decide as B; [|done].
    rewrite (e_local _ _ X2), (e_local _ _ X1), EL in B. congruence.
Qed.
Print Assumptions C38_import_names_are_stable.

(** The package of the file itself is never imported. *)
Theorem C38_local_package_has_no_qualifier : ∀ loc os, add_package (irun (new_imports loc) os) loc = (irun (new_imports loc) os, "").
Proof.
  intros loc os. destruct (irun_spec os _ (iwf_new loc)) as [W [EL _]]. cbn in EL. unfold add_package. rewrite EL. by rewrite bool_decide_eq_true_2.
Qed.
Print Assumptions C38_local_package_has_no_qualifier.

(** Nothing is imported that was not asked for. *)
Theorem C38_no_other_imports : ∀ loc os n p,
  binds (import_lines (irun (new_imports loc) os)) n p →
  ∃ o, o ∈ os ∧ match o with IAddPackage q => p = q | IAddType t | INameOf t => mentions t p end.
Proof.
  intros loc os. 
  assert (∀ t im p, iwf im → is_Some (packages (add_type im t) !! p) → is_Some (packages im !! p) ∨ mentions t p) as AT.
  { intros t. induction t as [n|pkg n|t IH|t IH|t IH|k IHk v IHv|t IH|t IH|t IH|o|b IHb q IHq|n]; intros im p W H; cbn [add_type mentions] in *; try (by left); try (by apply IH).
    - destruct (add_package im pkg) as [im' r] eqn:E. destruct (add_package_spec _ _ _ _ W E) as (_ & _ & _ & O).
      destruct (decide (p = pkg)) as [->|N]; [by right|]. cbn in H. rewrite O in H by done. by left.
    - apply IHv in H as [H|H]; [|tauto|by apply add_type_spec]. apply IHk in H as [H|H]; tauto. }
  assert (∀ p, is_Some (packages (irun (new_imports loc) os) !! p) → ∃ o, o ∈ os ∧ match o with IAddPackage q => p = q | IAddType t | INameOf t => mentions t p end) as G.
  { induction os as [|o os IH] using rev_ind; intros p H.
    - cbn in H. rewrite lookup_empty in H. by destruct H.
    - unfold irun in H. rewrite fold_left_app in H. cbn in H. fold (irun (new_imports loc) os) in H.
      destruct (irun_spec os _ (iwf_new loc)) as [W _].
      assert (is_Some (packages (irun (new_imports loc) os) !! p) ∨ match o with IAddPackage q => p = q | IAddType t | INameOf t => mentions t p end) as [H'|H'].
      { destruct o as [q|t|t]; cbn in H.
        - destruct (add_package (irun (new_imports loc) os) q) as [im' r] eqn:E. destruct (add_package_spec _ _ _ _ W E) as (_ & _ & _ & O).
          destruct (decide (p = q)) as [->|N]; [by right|]. cbn in H. rewrite O in H by done. by left.
        - by apply AT.
        - rewrite name_of_eq in H by done. by apply AT. }
      + destruct (IH p H') as (o' & Ho & ?). exists o'. split; [apply elem_of_app; by left|done].
      + exists o. split; [apply elem_of_app; right; left|done]. }
  intros n p B. apply binds_packages in B; [|by apply irun_spec, iwf_new]. apply G. eauto.
Qed.
Print Assumptions C38_no_other_imports.

(** C50. The text that NameOf gives for a plain type parses, in one way only, as a Go type, and in a file that ends up
    with whatever imports further calls add, it means that type and no other. *)
Theorem C50_names_mean_their_types : ∀ predeclared loc os t im s os',
  plain predeclared loc t → name_of (irun (new_imports loc) os) t = (im, s) →
  ∃ g, (∀ g' r, parses s g' r ↔ g' = g ∧ r = []) ∧
       (∀ t', means predeclared loc (import_lines (irun im os')) g t' ↔ t' = t).
Proof.
  intros pre loc os t im s os' P H.
  destruct (irun_spec os _ (iwf_new loc)) as [W [EL _]]. cbn in EL. rewrite name_of_eq in H by done. injection H as <- <-.
  destruct (add_type_spec t _ W) as (W1 & X1 & C1). destruct (irun_spec os' _ W1) as [W2 X2].
  set (im1 := add_type (irun (new_imports loc) os) t) in *.
  destruct (render_parses pre loc im1 t W1) with (r := @nil tok) as (g & G1 & G2); [rewrite (e_local _ _ X1); done|done|done|done|].
  rewrite app_nil_r in G1.
  assert (means pre loc (import_lines (irun im1 os')) g t) as G3.
  { eapply means_ext; [|exact G2]. intros n p. rewrite !binds_packages by done. intros B. eapply lookup_weaken; [exact B|apply X2]. }
  exists g. split.
  - intros g' r. split; [|by intros [-> ->]]. intros G'. by destruct (parses_det _ _ _ G1 _ _ G') as [-> <-].
  - intros t'. split; [|by intros ->]. intros M. symmetry. eapply means_det; [|exact G3|exact M].
    intros n p p'. rewrite !binds_packages by done. apply (w_inj _ W2).
Qed.
Print Assumptions C50_names_mean_their_types.

(** Asking for a name again, even after other calls, gives the same text: rendering a template twice is enough to
    have all imports in place. *)
Theorem C50_names_are_stable : ∀ loc os t im s os',
  name_of (irun (new_imports loc) os) t = (im, s) → name_of (irun im os') t = (irun im os', s).
Proof.
  intros loc os t im s os' H.
  destruct (irun_spec os _ (iwf_new loc)) as [W _]. rewrite name_of_eq in H by done. injection H as <- <-.
  destruct (add_type_spec t _ W) as (W1 & X1 & C1). destruct (irun_spec os' _ W1) as [W2 X2].
  rewrite name_of_eq by done. rewrite (add_type_idem t) by (by eapply covered_ext). by rewrite (render_ext _ _ _ X2 C1).
Qed.
Print Assumptions C50_names_are_stable.

(** Equals is equality of types. *)
Theorem C50_equals : ∀ a b, tname_equals a b = true ↔ a = b.
Proof. intros a b. apply tname_equals_spec. Qed.
Print Assumptions C50_equals.

Definition ex_pre (s : string) : Prop := s = "string" ∨ s = "int".
Definition ex_type := TMap (TBasic "string") (TChan (TPointer (TUser "b/util" "T"))).
Example C38_C50_nonvacuous :
  let os := [IAddPackage "a/util"; INameOf (TSlice (TUser "me/pkg" "Mine"))] in
  let im := irun (new_imports "me/pkg") os in
  plain ex_pre "me/pkg" ex_type ∧
  (name_of im ex_type).2 = [KMap; KLB; KId "string"; KRB; KChan; KStar; KId "util2"; KDot; KId "T"] ∧
  import_lines (name_of im ex_type).1 = [(None, "a/util"); (Some "util2", "b/util")] ∧
  (name_of im (TSlice (TUser "me/pkg" "Mine"))).2 = [KLB; KRB; KId "Mine"].
Proof.
  cbn zeta. split_and!; [|vm_compute; reflexivity..].
  constructor; [constructor; by left|]. constructor; [|done]. constructor. constructor. done.
Qed.

(** A channel of receive-only channels is rendered as a send-only channel: without parentheses the arrow goes to the
    first [chan]. *)
Theorem C50_channel_of_receive_channels_refuted : ∃ t s g predeclared,
  (name_of (new_imports "p") t).2 = s ∧ parses s g [] ∧
  (∀ lines t', means predeclared "p" lines g t' → t' ≠ t) ∧ means predeclared "p" [] g (TSend (TChan (TBasic "int"))).
Proof.
  exists (TChan (TRecv (TBasic "int"))), [KChan; KArrow; KChan; KId "int"], (GSend (GChan (GName "int"))), ex_pre. split_and!.
  - done.
  - constructor. constructor; [done|]. by constructor.
  - intros lines t' M ->. inversion M.
  - constructor. constructor. constructor. by right.
Qed.
Print Assumptions C50_channel_of_receive_channels_refuted.

(** A variadic parameter's type is neither imported nor named by its import name: here the text of "...b/util.T" names
    the type of another package. *)
Theorem C50_ellipsis_refuted : ∃ loc im im' s p,
  im = irun (new_imports loc) [IAddPackage "a/util"] ∧ name_of im (TEllipsis (TUser "b/util" "T")) = (im', s) ∧
  s = [KDots; KId "util"; KDot; KId "T"] ∧ binds (import_lines im') "util" p ∧ p ≠ "b/util".
Proof.
  eexists "me", _, _, _, "a/util". split_and!; [done|vm_compute; reflexivity|done| |done].
  right. split; [left|vm_compute; reflexivity].
Qed.
Print Assumptions C50_ellipsis_refuted.
