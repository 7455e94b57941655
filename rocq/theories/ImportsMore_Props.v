(** * More on type names (C50): variadic parameters *)
From Verif Require Import Imports_Model Imports_Spec Imports_Proof.
Set Default Proof Using "Type".
Open Scope string_scope.
Open Scope list_scope.

Lemma tname_string_parses pre loc lines t : plain pre loc t → (∀ p, mentions t p → binds lines (last_comp p) p) →
  ∀ r, (∀ r', r ≠ KDot :: r') → ∃ g, parses (tname_string t ++ r) g r ∧ means pre loc lines g t.
Proof.
  induction 1 as [x H|p x H|t P IH|t P IH|k v Pk IHk Pv IHv|t P IH Hn|t P IH|t P IH]; intros Hm r Hr; simpl in *.
  - exists (GName x). split; by constructor.
  - exists (GSel (last_comp p) x). split; constructor. by apply Hm.
  - destruct (IH Hm r Hr) as (g & ? & ?). exists (GStar g). split; by constructor.
  - destruct (IH Hm r Hr) as (g & ? & ?). exists (GSlice g). split; by constructor.
  - destruct (IHv (λ p H, Hm p (or_intror H)) r Hr) as (gv & ? & ?).
    destruct (IHk (λ p H, Hm p (or_introl H)) (KRB :: tname_string v ++ r)) as (gk & ? & ?); [done|].
    exists (GMap gk gv). split; [|by constructor]. rewrite <- (assoc_L (++)). simpl. by econstructor.
  - destruct (IH Hm r Hr) as (g & ? & ?). exists (GChan g). split; [|by constructor]. constructor; [|done].
    intros s' E. destruct t as [| | | | | | | | |[]|t1 t2|]; simpl in E; try discriminate; [by eapply Hn|inversion P].
  - destruct (IH Hm r Hr) as (g & ? & ?). exists (GRecv g). split; by constructor.
  - destruct (IH Hm r Hr) as (g & ? & ?). exists (GSend g). split; by constructor.
Qed.

(** C50. The text for a variadic parameter of a plain type is three dots and a text that parses, in one way only, as a Go
    type, and means that type in every file where the packages it mentions are imported under their own names. *)
Theorem C50_variadic_names_mean_their_types : ∀ predeclared loc im t lines,
  plain predeclared loc t → (∀ p, mentions t p → binds lines (last_comp p) p) →
  ∃ s g, name_of im (TEllipsis t) = (im, KDots :: s) ∧ (∀ g' r, parses s g' r ↔ g' = g ∧ r = []) ∧ means predeclared loc lines g t.
Proof.
  intros pre loc im t lines P Hm. destruct (tname_string_parses pre loc lines t P Hm [] ltac:(done)) as (g & G & M). rewrite app_nil_r in G.
  exists (tname_string t), g. split_and!; [done| |done]. intros g' r. split; [|by intros [-> ->]]. intros G'. by destruct (parses_det _ _ _ G _ _ G') as [-> <-].
Qed.
Print Assumptions C50_variadic_names_mean_their_types.
Example C50_variadic_nonvacuous :
  plain (λ s, s = "string") "me" (TMap (TBasic "string") (TPointer (TUser "b/util" "T"))) ∧
  (∀ p, mentions (TMap (TBasic "string") (TPointer (TUser "b/util" "T"))) p → binds [(None, "b/util")] (last_comp p) p) ∧
  (name_of (new_imports "me") (TEllipsis (TMap (TBasic "string") (TPointer (TUser "b/util" "T"))))).2 =
    [KDots; KMap; KLB; KId "string"; KRB; KStar; KId "util"; KDot; KId "T"].
Proof.
  split_and!; [by repeat constructor| |done]. simpl. intros p [[]| ->]. right. split; [left|done].
Qed.
