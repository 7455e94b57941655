(** * Properties of the Go source parser (C59) *)
From Verif Require Import GoSrc_Model GoSrc_Spec GoSrc_Proof.

(** C59. For every package whose source the Go compiler accepts (nothing is declared twice, every type
    expression has a meaning) and that keeps to what the parser handles ([plain], [no_hiding],
    [plain_imports]), and for every order in which map iteration delivers its files: parsing succeeds, and
    finds exactly the interfaces, structs, methods and functions that are declared, each with the parameters
    and results its signature stands for under Go's scoping rules. *)
Theorem C59_package_matches_source :
  ∀ W pkg fs fs1 fs2, acceptable W pkg fs → fs1 ≡ₚ fs → fs2 ≡ₚ fs →
    ∃ p, source_package pkg fs1 fs2 = Some p ∧ describes W pkg fs p.
Proof. exact source_package_describes. Qed.
Print Assumptions C59_package_matches_source.

(** An expression stands for at most one type. *)
Theorem C59_meaning_is_unique :
  ∀ W pkg fs f tps e t u, acceptable W pkg fs → f ∈ fs → (∀ x, x ∈ tps → x ∉ "any" :: basics ∧ ¬ is_type fs x) →
    denotes W pkg fs f tps e t → denotes W pkg fs f tps e u → t = u.
Proof.
  intros W pkg fs f tps e t u Hacc Hf Htps H1 H2.
  pose proof (load_types_iff W pkg fs fs fs Hacc (Permutation_refl _) (Permutation_refl _)) as Hty.
  destruct Hacc as (_ & _ & _ & (Hh & _) & Hi). eapply Forall_forall in Hi; [|exact Hf].
  apply (resolve_denotes W pkg fs _ Hty Hh f tps Hf Hi Htps) in H1, H2. congruence.
Qed.
Print Assumptions C59_meaning_is_unique.

(** A package of two files. *)
Definition demo_world : world := World (last_from "") (λ _ _, False).
Definition ctx : list string * expr := (["ctx"], ESelector (EIdent "context") "Context").
Definition err : list string * expr := ([], EIdent "error").
Definition hello : signature := Sig [] [ctx; (["a"; "b"], EArray "" (ESelector (EIdent "m") "Item"))] [([], EIdent "string"); err].
Definition new_svc : signature := Sig [] [ctx; (["n"], EIdent "int")] [([], EStar (EIdent "SvcImpl")); err].
Definition demo_imports : list (option string * string) := [(None, "context"); (Some "m", "x/models")].
Definition file_a : file := File "a.go" demo_imports [DOther; DType "Svc" [] (BInterface [MMethod "Hello" hello])].
Definition file_b : file := File "b.go" demo_imports
  [DFunc None "NewSvc" new_svc; DFunc (Some (EStar (EIdent "SvcImpl"))) "Hello" hello;
   DType "SvcImpl" [] (BStruct [EIdent "int"; EStar (EIdent "Svc")])].

Lemma demo_is_type n : is_type [file_a; file_b] n ↔ n = "Svc" ∨ n = "SvcImpl".
Proof.
  split.
  - intros (f & tps & b & Hf & Hd). apply elem_of_cons in Hf as [->|Hf]; [|apply elem_of_list_singleton in Hf as ->]; simpl in Hd.
    + rewrite !elem_of_cons, elem_of_nil in Hd. destruct Hd as [[=]|[[= -> _ _]|[]]]. by left.
    + rewrite !elem_of_cons, elem_of_nil in Hd. destruct Hd as [[=]|[[=]|[[= -> _ _]|[]]]]. by right.
  - intros [->| ->]; [exists file_a|exists file_b]; do 2 eexists; (split; [set_solver|]); simpl; [right; left|right; right; left].
Qed.
Lemma demo_imports_as f x p : f_imports f = demo_imports → imports_as demo_world f x p ↔ x = "context" ∧ p = "context" ∨ x = "m" ∧ p = "x/models".
Proof.
  intros Hf. unfold imports_as. rewrite Hf. unfold demo_imports. rewrite !elem_of_cons, !elem_of_nil. split.
  - intros [[[=]|[[= -> ->]|[]]]|[[[= ->]|[[=]|[]]] ->]]; [by right|by left].
  - intros [[-> ->]|[-> ->]]; [right; split; [by left|done]|left; right; by left].
Qed.
Lemma demo_denotes f e : f_imports f = demo_imports →
  e ∈ [ESelector (EIdent "context") "Context"; EIdent "error"; EArray "" (ESelector (EIdent "m") "Item"); EIdent "string"; EIdent "int";
       EStar (EIdent "SvcImpl"); EStar (EIdent "Svc")] → ∃ t, denotes demo_world "x" [file_a; file_b] f [] e t.
Proof.
  intros Hf He.
  assert (∀ n, n ∈ basics → denotes demo_world "x" [file_a; file_b] f [] (EIdent n) (TBasic n)) as Hb.
  { intros n Hn. apply den_basic; [by intros ?%elem_of_nil| |by intros p [_ []]|done].
    rewrite demo_is_type. intros [->| ->]; revert Hn; refine (bool_decide_unpack (¬ _) _); by vm_compute. }
  rewrite !elem_of_cons, elem_of_nil in He.
  assert (∀ n, n ∈ basics → ∃ t, denotes demo_world "x" [file_a; file_b] f [] (EIdent n) t) as Hb' by eauto.
  destruct He as [->|[->|[->|[->|[->|[->|[->|[]]]]]]]].
  - eexists. eapply den_sel; [done|done|]. apply demo_imports_as; auto.
  - apply Hb'. apply (bool_decide_unpack _). by vm_compute.
  - eexists. apply den_array. eapply den_sel; [done|done|]. apply demo_imports_as; auto.
  - apply Hb'. apply (bool_decide_unpack _). by vm_compute.
  - apply Hb'. apply (bool_decide_unpack _). by vm_compute.
  - eexists. apply den_star, den_local; [by intros ?%elem_of_nil|]. apply demo_is_type. auto.
  - eexists. apply den_star, den_local; [by intros ?%elem_of_nil|]. apply demo_is_type. auto.
Qed.
Lemma demo_sig_typed f s : f_imports f = demo_imports → s = hello ∨ s = new_svc → sig_typed demo_world "x" [file_a; file_b] f s.
Proof.
  intros Hf Hs ns e Hin. assert (sg_tparams s = []) as -> by (by destruct Hs as [->| ->]). apply demo_denotes; [done|].
  destruct Hs as [->| ->]; simpl in Hin; rewrite !elem_of_cons, elem_of_nil in Hin;
    repeat (destruct Hin as [[= -> ->]|Hin]; [rewrite !elem_of_cons; tauto|]); destruct Hin.
Qed.
Lemma demo_acceptable : acceptable demo_world "x" [file_a; file_b].
Proof.
  assert (∀ f d, f ∈ [file_a; file_b] → d ∈ f_decls f →
    f_imports f = demo_imports ∧
    (f = file_a ∧ (d = DOther ∨ d = DType "Svc" [] (BInterface [MMethod "Hello" hello])) ∨
     f = file_b ∧ (d = DFunc None "NewSvc" new_svc ∨ d = DFunc (Some (EStar (EIdent "SvcImpl"))) "Hello" hello ∨
       d = DType "SvcImpl" [] (BStruct [EIdent "int"; EStar (EIdent "Svc")])))) as Hall.
  { intros f d Hf Hd. rewrite !elem_of_cons, elem_of_nil in Hf. destruct Hf as [->|[->|[]]]; simpl in *;
      rewrite !elem_of_cons, elem_of_nil in Hd; tauto. }
  assert (∀ f n tps b, declares_type [file_a; file_b] f n tps b → tps = [] ∧ f_imports f = demo_imports ∧
     (f = file_a ∧ n = "Svc" ∧ b = BInterface [MMethod "Hello" hello] ∨
      f = file_b ∧ n = "SvcImpl" ∧ b = BStruct [EIdent "int"; EStar (EIdent "Svc")])) as Hty.
  { intros f n tps b [Hf Hd]. destruct (Hall _ _ Hf Hd) as (? & [(-> & [E|E])|(-> & [E|[E|E]])]); simplify_eq; split_and!; auto. }
  assert (∀ f r n s, f ∈ [file_a; file_b] → DFunc r n s ∈ f_decls f → f = file_b ∧
     (r = None ∧ n = "NewSvc" ∧ s = new_svc ∨ r = Some (EStar (EIdent "SvcImpl")) ∧ n = "Hello" ∧ s = hello)) as Hfn.
  { intros f r n s Hf Hd. destruct (Hall _ _ Hf Hd) as (? & [(-> & [E|E])|(-> & [E|[E|E]])]); simplify_eq; auto. }
  assert (∀ m s, MMethod m s ∈ [MMethod "Hello" hello] → m = "Hello" ∧ s = hello) as Hmm.
  { intros m s [= -> ->]%elem_of_list_singleton. done. }
  split_and!.
  - split_and!.
    + intros n f tps b f' tps' b' _ H H'. destruct (Hty _ _ _ _ H) as (-> & _ & [(-> & -> & ->)|(-> & -> & ->)]);
        destruct (Hty _ _ _ _ H') as (-> & _ & [(-> & E & ->)|(-> & E & ->)]); done.
    + intros f tps i ms n s s' _ H H1 H2. destruct (Hty _ _ _ _ H) as (-> & _ & [(-> & -> & [= ->])|(-> & -> & [=])]).
      destruct (Hmm _ _ H1) as [-> ->]. by destruct (Hmm _ _ H2) as [_ ->].
    + intros st n f s f' s' _ [Hf H] [Hf' H']. destruct H as [H|H], H' as [H'|H'];
        destruct (Hfn _ _ _ _ Hf H) as (-> & [([=] & _)|(E & -> & ->)]); simplify_eq;
        destruct (Hfn _ _ _ _ Hf' H') as (-> & [([=] & _)|(E' & _ & ->)]); simplify_eq; done.
    + intros n f s f' s' _ _ [Hf H] [Hf' H'].
      destruct (Hfn _ _ _ _ Hf H) as (-> & [(_ & -> & ->)|([=] & _)]).
      destruct (Hfn _ _ _ _ Hf' H') as (-> & [(_ & _ & ->)|([=] & _)]). done.
  - split_and!.
    + intros f n tps ms m s H Hm. destruct (Hty _ _ _ _ H) as (-> & Hi & [(-> & -> & [= ->])|(-> & -> & [=])]).
      destruct (Hmm _ _ Hm) as [-> ->]. apply demo_sig_typed; auto.
    + intros f n tps es e H He. destruct (Hty _ _ _ _ H) as (-> & Hi & [(-> & -> & [=])|(-> & -> & [= ->])]).
      apply demo_denotes; [done|]. rewrite !elem_of_cons, elem_of_nil in He. destruct He as [->|[->|[]]]; set_solver.
    + intros f r n s Hf Hd. destruct (Hfn _ _ _ _ Hf Hd) as (-> & [(_ & _ & ->)|(_ & _ & ->)]); apply demo_sig_typed; auto.
  - split_and!.
    + intros f n tps ms e H He. destruct (Hty _ _ _ _ H) as (-> & Hi & [(-> & -> & [= ->])|(-> & -> & [=])]).
      by apply elem_of_list_singleton in He.
    + intros f n tps ms m s H Hm. destruct (Hty _ _ _ _ H) as (-> & Hi & [(-> & -> & [= ->])|(-> & -> & [=])]).
      by destruct (Hmm _ _ Hm) as [-> ->].
    + intros f r n s Hf Hd. by destruct (Hfn _ _ _ _ Hf Hd) as (-> & [(_ & _ & ->)|(_ & _ & ->)]).
    + intros f r n s Hf Hd. destruct (Hfn _ _ _ _ Hf Hd) as (-> & [([=] & _)|([= ->] & _)]).
      exists "SvcImpl". split; [by right|]. exists file_b. do 2 eexists. split; [done|]. right. right. left.
  - split.
    + intros n Hn. split; [|by intros f p _ [_ []]]. rewrite demo_is_type. intros [->| ->]; revert Hn; refine (bool_decide_unpack (¬ _) _); by vm_compute.
    + intros f n tps b x H Hx. destruct (Hty _ _ _ _ H) as (-> & _). by apply elem_of_nil in Hx.
  - assert (∀ f, f_imports f = demo_imports → dot_imports f = [] → plain_imports demo_world f) as Hp.
    { intros f Hf Hd. split_and!.
      - rewrite Hf. intros p Hin. unfold demo_imports in Hin. rewrite !elem_of_cons, elem_of_nil in Hin. destruct Hin as [[= ->]|[[=]|[]]].
        by vm_compute.
      - intros x p q _ H1 H2. apply demo_imports_as in H1, H2; [|done..]. naive_solver.
      - rewrite Hd. simpl. lia. }
    rewrite !Forall_cons, Forall_nil. split; [by apply Hp|]. split; [by apply Hp|done].
Qed.
Example C59_nonvacuous :
  acceptable demo_world "x" [file_a; file_b] ∧
  (source_package "x" [file_b; file_a] [file_a; file_b] ≫= λ p, pk_structs p !! "SvcImpl") = Some {["Hello" := Func "Hello"
       [("ctx", TUser "context" "Context"); ("a", TSlice (TUser "x/models" "Item")); ("b", TSlice (TUser "x/models" "Item"))]
       [("", TBasic "string"); ("", TBasic "error")]]}.
Proof.
  split; [exact demo_acceptable|]. apply (bool_decide_unpack _). by vm_compute.
Qed.

(** ** Sources outside those bounds, all accepted by the Go compiler *)

(** One interface that embeds another, anywhere in the package: the error is dropped, and the package ends up
    without functions and its structs without methods. *)
Theorem C59_embedding_drops_functions :
  ∀ pkg fs1 fs2 f n tps ms e p, declares_type fs1 f n tps (BInterface ms) → MEmbedded e ∈ ms →
    source_package pkg fs1 fs2 = Some p → pk_funcs p = ∅ ∧ ∀ st m, pk_structs p !! st = Some m → m = ∅.
Proof. exact embedded_drops_functions. Qed.
Print Assumptions C59_embedding_drops_functions.
Example C59_embedding_nonvacuous :
  let f := File "c.go" [] [DType "Big" [] (BInterface [MEmbedded (EIdent "Svc")])] in
  (source_package "x" [file_a; file_b; f] [file_a; file_b; f] ≫= λ p, pk_structs p !! "SvcImpl") = Some ∅.
Proof. apply (bool_decide_unpack _); by vm_compute. Qed.

(** A method of a type that is not a struct stops the loading of functions at that file, so what the package
    contains depends on the order of map iteration. *)
Theorem C59_file_order_is_irrelevant_refuted :
  ¬ (∀ W pkg fs fs1 fs2 fs3 fs4, no_redeclaration fs → well_typed W pkg fs →
       fs1 ≡ₚ fs → fs2 ≡ₚ fs → fs3 ≡ₚ fs → fs4 ≡ₚ fs → source_package pkg fs1 fs2 = source_package pkg fs3 fs4).
Proof.
  intros H.
  pose (a := File "a.go" [] [DType "Color" [] BOther; DFunc (Some (EIdent "Color")) "String" (Sig [] [] [])]).
  pose (b := File "b.go" [] [DFunc None "New" (Sig [] [] [])]).
  assert (∀ f d, f ∈ [a; b] → d ∈ f_decls f → f = a ∧ (d = DType "Color" [] BOther ∨ d = DFunc (Some (EIdent "Color")) "String" (Sig [] [] []))
     ∨ f = b ∧ d = DFunc None "New" (Sig [] [] [])) as Hall.
  { intros f d Hf Hd. rewrite !elem_of_cons, elem_of_nil in Hf. destruct Hf as [->|[->|[]]]; simpl in *;
      rewrite !elem_of_cons, elem_of_nil in Hd; tauto. }
  specialize (H demo_world "x" [a; b] [a; b] [a; b] [a; b] [b; a]).
  assert (source_package "x" [a; b] [a; b] = source_package "x" [a; b] [b; a]) as E.
  { apply H; try done; [| |apply Permutation_swap].
    - split_and!.
      + intros n f tps b0 f' tps' b' _ [H1 H2] [H3 H4]. destruct (Hall _ _ H1 H2) as [(-> & [E|E])|(-> & E)]; simplify_eq.
        destruct (Hall _ _ H3 H4) as [(-> & [E|E])|(-> & E)]; simplify_eq. done.
      + intros f tps i ms n s s' _ [H1 H2]. destruct (Hall _ _ H1 H2) as [(-> & [E|E])|(-> & E)]; simplify_eq.
      + intros st n f s f' s' _ [H1 H2] [H3 H4]. destruct H2 as [H2|H2], H4 as [H4|H4];
        destruct (Hall _ _ H1 H2) as [(-> & [E|E])|(-> & E)]; simplify_eq.
        all: destruct (Hall _ _ H3 H4) as [(-> & [E|E])|(-> & E)]; simplify_eq; done.
      + intros n f s f' s' _ _ [H1 H2] [H3 H4]. destruct (Hall _ _ H1 H2) as [(-> & [E|E])|(-> & E)]; simplify_eq.
        destruct (Hall _ _ H3 H4) as [(-> & [E|E])|(-> & E)]; simplify_eq; done.
    - split_and!.
      + intros f n tps ms m s [H1 H2]. destruct (Hall _ _ H1 H2) as [(-> & [E|E])|(-> & E)]; simplify_eq.
      + intros f n tps ms m [H1 H2]. destruct (Hall _ _ H1 H2) as [(-> & [E|E])|(-> & E)]; simplify_eq.
      + intros f r n s H1 H2. destruct (Hall _ _ H1 H2) as [(-> & [E|E])|(-> & E)]; simplify_eq; intros ns e He; by apply elem_of_nil in He. }
  apply (f_equal (λ p, match p with Some p => bool_decide (pk_funcs p = ∅) | None => false end)) in E. vm_compute in E. discriminate.
Qed.
Print Assumptions C59_file_order_is_irrelevant_refuted.

(** The type parameters of a function are unknown to the parser, so that a package with a generic function
    (or a module with such a package) cannot be parsed; and a name that is declared nowhere goes unnoticed
    inside a slice, map, pointer or channel type. *)
Theorem C59_parses_what_compiles_refuted :
  ¬ (∀ W pkg fs, (∀ f r n s, f ∈ fs → DFunc r n s ∈ f_decls f → sig_typed W pkg fs f s) →
       (∀ f d, f ∈ fs → d ∈ f_decls f → ∃ n s, d = DFunc None n s) → is_Some (source_package pkg fs fs)).
Proof.
  intros H. pose (s := Sig ["T"] [(["x"], EIdent "T")] []).
  destruct (H demo_world "x" [File "a.go" [] [DFunc None "Id" s]]) as [p Hp].
  - intros f r n s' ->%elem_of_list_singleton [= -> -> ->]%elem_of_list_singleton ns e [= -> ->]%elem_of_list_singleton.
    exists (TParam "T"). constructor. simpl. by left.
  - intros f d ->%elem_of_list_singleton ->%elem_of_list_singleton. eauto.
  - vm_compute in Hp. discriminate.
Qed.
Print Assumptions C59_parses_what_compiles_refuted.
Theorem C59_undeclared_names_are_reported_refuted :
  ¬ (∀ W pkg fs f n s, declares_func fs f n s → is_Some (source_package pkg fs fs) → sig_typed W pkg fs f s).
Proof.
  intros H. pose (s := Sig [] [(["x"], EArray "" (EIdent "Oops"))] []). pose (f := File "a.go" [] [DFunc None "F" s]).
  destruct (H demo_world "x" [f] f "F" s) with (ns := ["x"]) (e := EArray "" (EIdent "Oops")) as [t Ht].
  - split; left.
  - eexists. vm_compute. reflexivity.
  - left.
  - assert (∀ u, ¬ denotes demo_world "x" [f] f [] (EIdent "Oops") u) as Hno.
    { intros u Hu. inversion Hu as [? Hx|? ? (g & ? & ? & Hg & Hd)|? ? ? ? [_ []]|? ? ? ? Hx| | | | | | | | | | | | |]; subst.
      - by apply elem_of_nil in Hx.
      - apply elem_of_list_singleton in Hg as ->. by apply elem_of_list_singleton in Hd.
      - revert Hx. refine (bool_decide_unpack (¬ _) _). by vm_compute. }
    inversion Ht; subst. by eapply Hno.
Qed.
Print Assumptions C59_undeclared_names_are_reported_refuted.
