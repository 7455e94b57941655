(** * Properties of workflow services (C60, C61, C62) *)
From Verif Require Import GoSrc_Model GoSrc_Spec GoSrc_Proof GoSrc_Props WfSpec_Model WfSpec_Spec WfSpec_Proof.

(** ** C60: which structs implement an interface *)

(** C60. For every struct and every interface whose methods mention no generic type, in every order of map
    iteration: the comparison does not panic, and says yes exactly if the struct has every method of the
    interface with the same types. *)
Theorem C60_implements_means_satisfies :
  ∀ o s i, fair o → comparable i → ∃ b, implements o s i = Some b ∧ (b = true ↔ satisfies s i).
Proof. intros o s i. apply implements_comparable. Qed.
Print Assumptions C60_implements_means_satisfies.
(** Even with generic types it never says yes wrongly. *)
Theorem C60_implements_is_sound : ∀ o s i, fair o → implements o s i = Some true → satisfies s i.
Proof. intros o s i. apply implements_true. Qed.
Print Assumptions C60_implements_is_sound.

Lemma fields_denote_ex W pkg fs f tps ps : (∀ ns e, (ns, e) ∈ ps → ∃ t, denotes W pkg fs f tps e t) →
  ∃ a, fields_denote W pkg fs f tps ps a.
Proof.
  unfold fields_denote. induction ps as [|[ns e] ps IH]; intros H; simpl; [by exists []|].
  destruct IH as [a Ha]; [intros ns' e' He; apply (H ns'); by right|].
  destruct (H ns e) as [t Ht]; [by left|]. destruct ns as [|n ns].
  - exists (("", t) :: a). by constructor.
  - exists (((λ n, (n, t)) <$> n :: ns) ++ a). apply Forall2_app; [|done]. clear -Ht.
    generalize (n :: ns). intros l. induction l as [|x l IH]; simpl; [constructor|]. by constructor.
Qed.

(** The same from source to verdict: the struct [S] of package [p] against the interface [I] of package [q],
    each parsed from its files. *)
Theorem C60_implements_from_source :
  ∀ W o p fs P S sm q gs Q I im, fair o → acceptable W p fs → acceptable W q gs →
    source_package p fs fs = Some P → pk_structs P !! S = Some sm →
    source_package q gs gs = Some Q → pk_ifaces Q !! I = Some im → I ≠ "_" →
    (∀ f s, ¬ iface_method gs f I "_" s) → comparable im →
    ∃ b, implements o sm im = Some b ∧
      (b = true ↔ ∀ f m s, iface_method gs f I m s → ∃ f' s' args rets, declares_method fs f' S m s' ∧
                    sig_types W q gs f s args rets ∧ sig_types W p fs f' s' args rets).
Proof.
  intros W o p fs P S sm q gs Q I im Ho Hp Hq HP HS HQ HI HI0 Hb Hc.
  destruct (implements_comparable o sm im Ho Hc) as (b & Hi & Hbs). exists b. split; [done|]. rewrite Hbs. clear Hbs Hi b.
  destruct (C59_package_matches_source W p fs fs fs Hp) as (P' & HP' & (_ & _ & _ & _ & _ & Hst1 & Hst2 & _)); [done..|].
  rewrite HP in HP'. injection HP' as <-.
  pose proof Hq as (_ & (Hty & _) & _).
  destruct (C59_package_matches_source W q gs gs gs Hq) as (Q' & HQ' & (_ & _ & _ & Hif1 & Hif2 & _)); [done..|].
  rewrite HQ in HQ'. injection HQ' as <-.
  split.
  - intros Hs f m s Hm. assert (m ≠ "_") as Hm0 by (intros ->; by eapply Hb). pose proof Hm as (tps & mems & Hd & Hin).
    pose proof (Hty _ _ _ _ _ _ Hd Hin) as Hsig.
    destruct (fields_denote_ex W q gs f (sg_tparams s) (sg_params s)) as [a Ha]; [intros; eapply Hsig; apply elem_of_app; left; eassumption|].
    destruct (fields_denote_ex W q gs f (sg_tparams s) (sg_results s)) as [r Hr]; [intros; eapply Hsig; apply elem_of_app; right; eassumption|].
    destruct (Hif2 I m (Func m a r) f s HI0 Hm0 Hm) as (ms & Hms & Hmm); [done|]. rewrite HI in Hms. injection Hms as <-.
    destruct (Hs _ _ Hmm) as (g & Hg & Hgn & Hga & Hgr). destruct (Hst1 S m g) as (f' & s' & Hd' & _ & Ha' & Hr'); [eauto|].
    exists f', s', a.*2, r.*2. split; [done|]. split; [by exists a, r|]. by exists (fn_args g), (fn_rets g).
  - intros H n f Hf. destruct (Hif1 I n f) as (fl & s & Hm & Hn & Ha & Hr); [eauto|].
    assert (n ≠ "_") as Hn0 by (intros ->; by eapply Hb).
    destruct (H _ _ _ Hm) as (f' & s' & args & rets & Hd & (a1 & r1 & Ha1 & Hr1 & <- & <-) & (a2 & r2 & Ha2 & Hr2 & Ea & Er)).
    destruct (Hst2 S n (Func n a2 r2) f' s' Hn0 Hd) as (ms & Hms & Hmm); [done|]. rewrite HS in Hms. injection Hms as <-.
    exists (Func n a2 r2). simpl. split; [done|]. split; [done|]. rewrite Ea, Er.
    (* the meaning of the interface's signature is unique *)
    destruct (Hif2 I n (Func n a1 r1) fl s HI0 Hn0 Hm) as (ms & Hms & Hmm1); [done|]. rewrite HI in Hms. injection Hms as <-.
    rewrite Hf in Hmm1. injection Hmm1 as ->. done.
Qed.
Print Assumptions C60_implements_from_source.

(** *** A package with a service, parsed from source *)
Definition plain_order : order := Order (λ _ _ l, l).
Definition reverse_order : order := Order (λ _ _ l, reverse l).
Lemma plain_order_fair : fair plain_order.
Proof. by intros A n l. Qed.
Lemma reverse_order_fair : fair reverse_order.
Proof. intros A n l. apply reverse_Permutation. Qed.

Definition no_package : package := Package "" ∅ ∅ ∅.
Definition demo_package : package := default no_package (source_package "x" [file_a; file_b] [file_a; file_b]).
Definition hello_func : gofunc := Func "Hello"
  [("ctx", TUser "context" "Context"); ("a", TSlice (TUser "x/models" "Item")); ("b", TSlice (TUser "x/models" "Item"))]
  [("", TBasic "string"); ("", TBasic "error")].
Definition new_func : gofunc := Func "NewSvc" [("ctx", TUser "context" "Context"); ("n", TBasic "int")]
  [("", TPtr (TUser "x" "SvcImpl")); ("", TBasic "error")].
Lemma demo_ifaces : pk_ifaces demo_package = {["Svc" := {["Hello" := hello_func]}]}.
Proof. apply (bool_decide_unpack _). by vm_compute. Qed.
Lemma demo_structs : pk_structs demo_package = {["SvcImpl" := {["Hello" := hello_func]}]}.
Proof. apply (bool_decide_unpack _). by vm_compute. Qed.
Lemma demo_funcs : pk_funcs demo_package = {["NewSvc" := new_func]}.
Proof. apply (bool_decide_unpack _). by vm_compute. Qed.
Lemma hello_comparable : comparable {["Hello" := hello_func]}.
Proof.
  intros n f v [<- <-]%lookup_singleton_Some Hv. simpl in Hv. rewrite !elem_of_cons, elem_of_nil in Hv.
  repeat (destruct Hv as [->|Hv]; [done|]). destruct Hv.
Qed.
Example C60_nonvacuous :
  acceptable demo_world "x" [file_a; file_b] ∧ comparable {["Hello" := hello_func]} ∧
  pk_ifaces demo_package !! "Svc" = Some {["Hello" := hello_func]} ∧ (∀ f s, ¬ iface_method [file_a; file_b] f "Svc" "_" s) ∧
  implements reverse_order {["Hello" := hello_func]} {["Hello" := hello_func]} = Some true ∧
  implements plain_order {["Hello" := Func "Hello" (fn_args hello_func) [("", TBasic "error")]]} {["Hello" := hello_func]} = Some false.
Proof.
  split; [exact demo_acceptable|]. split; [exact hello_comparable|]. split; [by rewrite demo_ifaces|].
  split; [|split; apply (bool_decide_unpack _); by vm_compute].
  intros f s (tps & ms & [Hf Hd] & Hm). rewrite !elem_of_cons, elem_of_nil in Hf. destruct Hf as [->|[->|[]]]; simpl in Hd;
    rewrite !elem_of_cons, elem_of_nil in Hd.
  - destruct Hd as [[=]|[[= -> ->]|[]]]. by apply elem_of_list_singleton in Hm.
  - naive_solver.
Qed.

(** *** What the comparison gets wrong *)

(** A type instantiated with arguments cannot be compared to itself: the parser drops the argument, and the
    comparison calls a method of nil. *)
Lemma ty_equals_refl t : ty_equals t t ≠ Some false.
Proof.
  induction t as [n|p n|t IH|t IH|t IH|k IHk v IHv|t IH|t IH|t IH| | | | |b IHb q IHq|n|]; simpl; try done;
    try (rewrite !bool_decide_eq_true_2 by done; done).
  - by destruct (ty_equals k k) as [[]|].
  - by destruct (ty_equals b b) as [[]|].
Qed.
Theorem C60_generic_types_cannot_be_compared :
  ∀ W pkg fs f tps e a t, denotes W pkg fs f tps (EIndex e a) t → ty_equals t t = None.
Proof.
  intros W pkg fs f tps e a t H. inversion H as [| | | | | | | | | | | | | | | |? ? u Hu]; subst. simpl.
  pose proof (ty_equals_refl u). by destruct (ty_equals u u) as [[]|].
Qed.
Print Assumptions C60_generic_types_cannot_be_compared.
Theorem C60_no_panic_refuted :
  ¬ (∀ o fs P S sm I im, fair o → source_package "x" fs fs = Some P → pk_structs P !! S = Some sm → pk_ifaces P !! I = Some im →
       implements o sm im ≠ None).
Proof.
  intros H. pose (s := Sig [] [(["l"], EIndex (EIdent "List") "int")] []).
  pose (f := File "a.go" [] [DType "List" ["T"] (BStruct [EArray "" (EIdent "T")]); DType "I" [] (BInterface [MMethod "F" s]);
                             DType "S" [] (BStruct []); DFunc (Some (EIdent "S")) "F" s]).
  apply (H plain_order [f] (default no_package (source_package "x" [f] [f])) "S"
           (default ∅ (source_package "x" [f] [f] ≫= λ p, pk_structs p !! "S")) "I"
           (default ∅ (source_package "x" [f] [f] ≫= λ p, pk_ifaces p !! "I")) plain_order_fair); vm_compute; reflexivity.
Qed.
Print Assumptions C60_no_panic_refuted.

(** Function types are all alike to it, whatever their parameters. *)
Theorem C60_function_types_are_told_apart_refuted :
  ¬ (∀ o fs P S sm I im f m s f' s' n a n' b, fair o → source_package "x" fs fs = Some P →
       pk_structs P !! S = Some sm → pk_ifaces P !! I = Some im → implements o sm im = Some true →
       iface_method fs f I m s → declares_method fs f' S m s' →
       sg_params s = [(n, EFunc a)] → sg_params s' = [(n', EFunc b)] → a = b).
Proof.
  intros H. pose (s := λ a, Sig [] [(["g"], EFunc a)] []).
  pose (f := File "a.go" [] [DType "I" [] (BInterface [MMethod "F" (s "func(int)")]);
                             DType "S" [] (BStruct []); DFunc (Some (EIdent "S")) "F" (s "func(string)")]).
  assert ("func(int)" = "func(string)") as [=].
  apply (H plain_order [f] (default no_package (source_package "x" [f] [f])) "S"
           (default ∅ (source_package "x" [f] [f] ≫= λ p, pk_structs p !! "S")) "I"
           (default ∅ (source_package "x" [f] [f] ≫= λ p, pk_ifaces p !! "I")) f "F" (s "func(int)") f (s "func(string)") ["g"] _ ["g"] _ plain_order_fair);
    try (vm_compute; reflexivity).
  - exists [], [MMethod "F" (s "func(int)")]. split; [|by left]. split; [by left|]. simpl. left.
  - split; [by left|]. simpl. left. right. right. left.
Qed.
Print Assumptions C60_function_types_are_told_apart_refuted.

(** Identical types under two names are told apart: any and the empty interface, byte and uint8, rune and int32. *)
Inductive alias_of : expr → expr → Prop :=
| al_refl e : alias_of e e
| al_any : alias_of (EIdent "any") (EInterface "interface{}")
| al_byte : alias_of (EIdent "byte") (EIdent "uint8")
| al_rune : alias_of (EIdent "rune") (EIdent "int32")
| al_array l e e' : alias_of e e' → alias_of (EArray l e) (EArray l e').
Definition same_fields (a b : fields) : Prop := Forall2 (λ x y, x.1 = y.1 ∧ alias_of x.2 y.2) a b.
Theorem C60_identical_types_are_recognised_refuted :
  ¬ (∀ o fs P S sm I im, fair o → source_package "x" fs fs = Some P →
       pk_structs P !! S = Some sm → pk_ifaces P !! I = Some im →
       (∀ f m s, iface_method fs f I m s → ∃ f' s', declares_method fs f' S m s' ∧
          same_fields (sg_params s) (sg_params s') ∧ same_fields (sg_results s) (sg_results s')) →
       implements o sm im = Some true).
Proof.
  intros H. pose (s := λ e, Sig [] [(["x"], EArray "" (EIdent e))] []).
  pose (f := File "a.go" [] [DType "I" [] (BInterface [MMethod "F" (s "byte")]);
                             DType "S" [] (BStruct []); DFunc (Some (EIdent "S")) "F" (s "uint8")]).
  assert (Some false = Some true) as [=].
  rewrite <- (H plain_order [f] (default no_package (source_package "x" [f] [f])) "S"
           (default ∅ (source_package "x" [f] [f] ≫= λ p, pk_structs p !! "S")) "I"
           (default ∅ (source_package "x" [f] [f] ≫= λ p, pk_ifaces p !! "I")) plain_order_fair);
    try (vm_compute; reflexivity).
  intros f0 m s0 (tps & ms & [Hf Hd] & Hm). apply elem_of_list_singleton in Hf as ->. simpl in Hd.
  rewrite !elem_of_cons, elem_of_nil in Hd. destruct Hd as [[= -> ->]|[[=]|[[=]|[]]]].
  apply elem_of_list_singleton in Hm as [= -> ->]. exists f, (s "uint8"). split; [|split; repeat constructor].
  split; [by left|]. simpl. left. right. right. left.
Qed.
Print Assumptions C60_identical_types_are_recognised_refuted.

(** ** C61: looking up a service *)

(** C61. In every module set, in every order of map iteration: a service found for a type is a service for
    that type; ... *)
Theorem C61_found_service_is_for_type :
  ∀ o ms m pkg n sv, fair o → filed ms → get_service o ms m pkg n = LService sv → service_for ms m pkg n sv.
Proof.
  intros o ms m pkg n sv Ho Hf. unfold get_service. destruct (ms !! m) as [pkgs|] eqn:Hm; [|done].
  destruct (pkgs !! pkg) as [p|] eqn:Hp; [|done]. pose proof (Hf _ _ _ _ Hm Hp) as Hn.
  destruct (pk_ifaces p !! n) as [i|] eqn:Hi.
  - intros (E & Hs & H1 & H2 & H3 & H4)%from_iface_sound; [|done]. simpl in *. exists pkgs, p. rewrite E. simpl.
    split_and!; try done; [by exists m, pkgs, pkg, p|]. left. exists i. rewrite <- Hn. done.
  - destruct (pk_structs p !! n) as [s|] eqn:Hs; [|done].
    intros (E & H1 & H2 & H3 & H4 & H5)%from_struct_sound; [|done]. simpl in *. exists pkgs, p. rewrite E. simpl.
    split_and!; try done; [by exists m, pkgs, pkg, p|]. right. split; [done|]. exists s. rewrite <- Hn. done.
Qed.
Print Assumptions C61_found_service_is_for_type.

(** ... if no interface mentions a generic type, a service is found whenever there is one, and otherwise
    there is an error, or, if the package is not in the module, nil without an error; ... *)
Theorem C61_service_is_found :
  ∀ o ms m pkg n sv, fair o → filed ms → all_comparable ms → service_for ms m pkg n sv →
    ∃ sv', get_service o ms m pkg n = LService sv'.
Proof.
  intros o ms m pkg n sv Ho Hf Hc (pkgs & p & Hm & Hp & H1 & H2 & H3 & H4 & H5 & H6).
  pose proof (Hf _ _ _ _ Hm Hp) as Hn. unfold get_service. rewrite Hm, Hp. destruct H6 as [(i & Hi & E & Hct)|(Hi & s & Hs & E & Hct)].
  - rewrite Hi, Hn. rewrite E in H1, H4, H5. eapply from_iface_complete; try done. by eapply Hc in H1.
  - rewrite Hi, Hs, Hn. rewrite E in H2, H5. by eapply from_struct_complete.
Qed.
Print Assumptions C61_service_is_found.
Theorem C61_otherwise_an_error :
  ∀ o ms m pkg n, fair o → all_comparable ms →
    (∃ sv, get_service o ms m pkg n = LService sv) ∨ get_service o ms m pkg n = LError ∨
    (get_service o ms m pkg n = LNil ∧ ∃ pkgs, ms !! m = Some pkgs ∧ pkgs !! pkg = None).
Proof.
  intros o ms m pkg n Ho Hc. unfold get_service. destruct (ms !! m) as [pkgs|] eqn:Hm; [|auto].
  destruct (pkgs !! pkg) as [p|] eqn:Hp; [|eauto 10]. destruct (pk_ifaces p !! n) as [i|] eqn:Hi.
  - destruct (from_iface_no_panic o Ho ms (Found (pk_name p) n i)) as [H1 H2].
    { apply (Hc (Found (pk_name p) n i)). by exists m, pkgs, pkg, p. }
    destruct (service_from_iface o ms (Found (pk_name p) n i)); naive_solver.
  - destruct (pk_structs p !! n) as [s|]; [|auto].
    destruct (from_struct_no_panic o Ho ms (Found (pk_name p) n s) Hc) as [H1 H2].
    destruct (service_from_struct o ms (Found (pk_name p) n s)); naive_solver.
Qed.
Print Assumptions C61_otherwise_an_error.

(** ... and if there is only one service for the type, it does not depend on the order of map iteration. *)
Theorem C61_lookup_is_deterministic :
  ∀ o o' ms m pkg n, fair o → fair o' → filed ms → all_comparable ms →
    (∀ sv sv', service_for ms m pkg n sv → service_for ms m pkg n sv' → sv = sv') →
    get_service o ms m pkg n = get_service o' ms m pkg n.
Proof.
  intros o o' ms m pkg n Ho Ho' Hf Hc Hu.
  destruct (get_service o ms m pkg n) as [sv| | |] eqn:E.
  - apply C61_found_service_is_for_type in E; [|done..]. destruct (C61_service_is_found o' ms m pkg n sv Ho' Hf Hc E) as [sv' E'].
    rewrite E'. apply C61_found_service_is_for_type in E'; [|done..]. f_equal. by apply Hu.
  - destruct (C61_otherwise_an_error o' ms m pkg n Ho' Hc) as [[sv E']|[E'|[E' (pkgs & Hm & Hp)]]].
    + apply C61_found_service_is_for_type in E'; [|done..]. destruct (C61_service_is_found o ms m pkg n sv Ho Hf Hc E') as [sv' ?]. congruence.
    + by rewrite E'.
    + unfold get_service in E. by rewrite Hm, Hp in E.
  - destruct (C61_otherwise_an_error o ms m pkg n Ho Hc) as [[sv E']|[E'|[E' (pkgs & Hm & Hp)]]]; [congruence|congruence|].
    unfold get_service. by rewrite Hm, Hp.
  - destruct (C61_otherwise_an_error o ms m pkg n Ho Hc) as [[sv E']|[E'|[E' _]]]; congruence.
Qed.
Print Assumptions C61_lookup_is_deterministic.

Local Notation demo_set := ({["mod" := {["x" := demo_package]}]} : modset).
Lemma demo_in_set {A} (part : package → gmap string A) x :
  in_set demo_set part x ↔ fd_pkg x = "x" ∧ part demo_package !! fd_name x = Some (fd_val x).
Proof.
  unfold in_set. split.
  - intros (m & pkgs & k & p & [<- <-]%lookup_singleton_Some & [<- <-]%lookup_singleton_Some & Hn & Hx). split; [|done]. rewrite <- Hn. by vm_compute.
  - intros [H1 H2]. exists "mod", {["x" := demo_package]}, "x", demo_package. rewrite H1. split_and!; done.
Qed.
Example C61_nonvacuous :
  let sv := Service (Found "x" "Svc" {["Hello" := hello_func]}) (Found "x" "NewSvc" new_func) (Found "x" "SvcImpl" {["Hello" := hello_func]}) in
  filed demo_set ∧ all_comparable demo_set ∧ service_for demo_set "mod" "x" "SvcImpl" sv ∧
  (∀ sv', service_for demo_set "mod" "x" "SvcImpl" sv' → sv' = sv) ∧ (∀ sv', ¬ service_for demo_set "mod" "x" "Svc" sv') ∧
  get_service plain_order demo_set "mod" "x" "Svc" = LError ∧ get_service plain_order demo_set "mod" "y" "Svc" = LNil.
Proof.
  intros sv. assert (filed demo_set) as Hfiled.
  { intros m pkgs k p [<- <-]%lookup_singleton_Some [<- <-]%lookup_singleton_Some. by vm_compute. }
  assert (all_comparable demo_set) as Hcmp.
  { intros [p n v] [E H]%demo_in_set. simpl in *. rewrite demo_ifaces in H. apply lookup_singleton_Some in H as [<- <-]. apply hello_comparable. }
  assert (∀ n sv', service_for demo_set "mod" "x" n sv' → n = "SvcImpl" ∧ sv' = sv) as Hu.
  { intros n [[ip iname iv] [cp cname cv] [sp sname s_v]]. unfold service_for. simpl.
    intros (pkgs & p & [_ <-]%lookup_singleton_Some & [_ <-]%lookup_singleton_Some & [E1 H1]%demo_in_set & [E2 H2]%demo_in_set & [E3 H3]%demo_in_set & _ & _ & H).
    simpl in *. rewrite demo_ifaces in H1, H. rewrite demo_structs in H2, H. rewrite demo_funcs in H3. subst.
    apply lookup_singleton_Some in H1 as [<- <-]. apply lookup_singleton_Some in H2 as [<- <-]. apply lookup_singleton_Some in H3 as [<- <-].
    destruct H as [(i & _ & _ & _ & (r & e & [=]))|(_ & s & [<- _]%lookup_singleton_Some & _)]. done. }
  split; [done|]. split; [done|]. split; [|split; [|split; [|split]]].
  - destruct (get_service plain_order demo_set "mod" "x" "SvcImpl") as [sv'| | |] eqn:E.
    + apply C61_found_service_is_for_type in E; [|apply plain_order_fair|done]. by destruct (Hu _ _ E) as [_ <-].
    + exfalso. assert (match get_service plain_order demo_set "mod" "x" "SvcImpl" with LService _ => true | _ => false end = true) as H by (by vm_compute). by rewrite E in H.
    + exfalso. assert (match get_service plain_order demo_set "mod" "x" "SvcImpl" with LService _ => true | _ => false end = true) as H by (by vm_compute). by rewrite E in H.
    + exfalso. assert (match get_service plain_order demo_set "mod" "x" "SvcImpl" with LService _ => true | _ => false end = true) as H by (by vm_compute). by rewrite E in H.
  - intros sv' H. destruct (Hu _ _ H) as [? ?]. done.
  - intros sv' H. destruct (Hu _ _ H) as [? ?]. done.
  - by vm_compute.
  - by vm_compute.
Qed.

(** If a struct satisfies two service interfaces of the modules, which one the service gets is a matter of
    map order.  An interface without methods is one of them, whatever the struct. *)
Theorem C61_every_struct_satisfies_the_empty_interface : ∀ s, satisfies s ∅ ∧ service_iface ∅ ∧ comparable ∅.
Proof. intros s. split_and!; intros n f; by rewrite lookup_empty. Qed.
Print Assumptions C61_every_struct_satisfies_the_empty_interface.
Theorem C61_always_deterministic_refuted :
  ¬ (∀ o o' ms m pkg n, fair o → fair o' → filed ms → all_comparable ms →
       get_service o ms m pkg n = get_service o' ms m pkg n).
Proof.
  intros H. pose (p := Package "x" (<["Any" := ∅]> (pk_ifaces demo_package)) (pk_structs demo_package) (pk_funcs demo_package)).
  specialize (H plain_order reverse_order {["mod" := {["x" := p]}]} "mod" "x" "SvcImpl" plain_order_fair reverse_order_fair).
  apply (f_equal (λ r, match r with LService sv => fd_name (sv_iface sv) | _ => "" end)) in H.
  - vm_compute in H. discriminate.
  - intros m pkgs k p' [<- <-]%lookup_singleton_Some [<- <-]%lookup_singleton_Some. done.
  - intros [q n v] (m & pkgs & k & p' & [<- <-]%lookup_singleton_Some & [<- <-]%lookup_singleton_Some & _ & Hv). simpl in *.
    apply lookup_insert_Some in Hv as [[_ <-]|[_ Hv]]; [apply (C61_every_struct_satisfies_the_empty_interface ∅)|].
    rewrite demo_ifaces in Hv. apply lookup_singleton_Some in Hv as [_ <-]. apply hello_comparable.
Qed.
Print Assumptions C61_always_deterministic_refuted.

(** ** C62: constructor arguments and clients *)

(** C62. For every constructor and argument list, every wiring spec and every outcome of building the
    arguments: the build succeeds only if there is one argument per parameter after the context; then a
    string parameter whose argument is not defined in the wiring spec gets the argument as its value, and
    every other parameter gets the node of that name, in order.  It fails otherwise only if such a node
    could not be built. *)
Theorem C62_arguments_match_constructor :
  ∀ N (defined : string → bool) (get : string → option N) c ctx ps args r,
    fn_args c = ctx :: ps →
    service_args defined get c args = Some r ↔
    length args = length ps ∧ length r = length ps ∧
    ∀ i p t a x, ps !! i = Some (p, t) → args !! i = Some a → r !! i = Some x →
      (t = TBasic "string" ∧ defined a = false → x = AValue a) ∧
      (t ≠ TBasic "string" ∨ defined a = true → ∃ n, get a = Some n ∧ x = ANode n).
Proof.
  intros N defined get c ctx ps args r Hc. unfold service_args. rewrite Hc. simpl. case_bool_decide as Hl.
  - rewrite arg_nodes_spec by done. split.
    + intros [H1 H2]. split_and!; [lia|lia|]. intros i p t a x Hp Ha Hx. specialize (H2 i p t a x Hp Ha Hx).
      destruct (decide (t = TBasic "string" ∧ defined a = false)) as [[-> ->]|Hn]; [naive_solver|].
      split; [tauto|done].
    + intros (H1 & H2 & H3). split; [lia|]. intros i p t a x Hp Ha Hx. destruct (H3 i p t a x Hp Ha Hx) as [Hv Hn].
      destruct (decide (t = TBasic "string" ∧ defined a = false)) as [Hd|Hd]; [by apply Hv|]. apply Hn.
      destruct (decide (t = TBasic "string")) as [->|]; [|by left]. right. destruct (defined a); [done|]. by destruct Hd.
  - split; [done|]. intros (H & _). congruence.
Qed.
Print Assumptions C62_arguments_match_constructor.
Theorem C62_fails_only_for_a_reason :
  ∀ N (defined : string → bool) (get : string → option N) c ctx ps args,
    fn_args c = ctx :: ps → service_args defined get c args = None →
    length args ≠ length ps ∨ ∃ i p t a, ps !! i = Some (p, t) ∧ args !! i = Some a ∧ (t ≠ TBasic "string" ∨ defined a = true) ∧ get a = None.
Proof.
  intros N defined get c ctx ps args Hc. unfold service_args. rewrite Hc. simpl. case_bool_decide as Hl; [|intros _; left; congruence].
  intros H. right. clear Hc Hl. revert args H. induction ps as [|[p t] ps IH]; intros [|a args] H; simpl in *; try done.
  destruct (if bool_decide (t = TBasic "string") && negb (defined a) then Some (AValue a) else ANode <$> get a) as [x|] eqn:E.
  - destruct (arg_nodes defined get ps args) eqn:E'; [done|]. destruct (IH args E') as (i & H'). by exists (S i).
  - exists 0, p, t, a. split_and!; try done.
    + case_bool_decide; [|by left]. right. by destruct (defined a).
    + destruct (bool_decide (t = TBasic "string") && negb (defined a)); [done|]. by destruct (get a).
Qed.
Print Assumptions C62_fails_only_for_a_reason.
(** The documentation says that string arguments are treated as configuration: not if the wiring spec happens
    to define a node of that name. *)
Theorem C62_string_arguments_are_values_refuted :
  ¬ (∀ N (defined : string → bool) (get : string → option N) c args r i p a,
       service_args defined get c args = Some r → fn_args c !! S i = Some (p, TBasic "string") → args !! i = Some a →
       r !! i = Some (AValue a)).
Proof.
  intros H. specialize (H nat (λ _, true) (λ _, Some 7) (Func "New" [("ctx", context_type); ("name", TBasic "string")] []) ["db"] [ANode 7] 0 "name" "db").
  simpl in H. by specialize (H eq_refl eq_refl eq_refl).
Qed.
Print Assumptions C62_string_arguments_are_values_refuted.

(** Clients see exactly the methods of the service interface, each without its context and its error. *)
Theorem C62_client_interface :
  ∀ i, service_iface i →
    dom (client_iface i) = dom i ∧
    ∀ n f, i !! n = Some f → ∃ g ctx err, client_iface i !! n = Some g ∧ fn_name g = fn_name f ∧
      fn_args f = (ctx, context_type) :: fn_args g ∧ fn_rets f = fn_rets g ++ [(err, error_type)].
Proof.
  intros i Hi. split; [apply dom_fmap_L|]. intros n f Hf. destruct (Hi _ _ Hf) as [(a & args & Ha) (rets & e & Hr)].
  exists (client_func f), a, e. unfold client_iface. rewrite lookup_fmap, Hf. unfold client_func. simpl.
  rewrite Ha, Hr, removelast_last. done.
Qed.
Print Assumptions C62_client_interface.
Example C62_nonvacuous :
  let c := Func "New" [("ctx", context_type); ("db", TUser "x" "DB"); ("name", TBasic "string")] [] in
  let defined := λ n, bool_decide (n = "mydb") in
  let get := λ n, if defined n then Some 5 else None in
  service_args defined get c ["mydb"; "alice"] = Some [ANode 5; AValue "alice"] ∧
  service_args defined get c ["mydb"] = None ∧ service_args defined get c ["alice"; "mydb"] = None ∧
  service_iface {["Hello" := hello_func]}.
Proof.
  split_and!; try done. intros n f [<- <-]%lookup_singleton_Some. split; [by do 2 eexists|]. by exists [("", TBasic "string")], "".
Qed.
