(** * Properties of the generated tests (C81) *)
From Verif Require Import GoTests_Model GoTests_Spec GoTests_Proof.
From stdpp Require Import list.
Open Scope string_scope.
Open Scope list_scope.

(** C81. Take any test modules that Go accepts and the parser handles, any services to test, and any order of
    the map iterations in between. *)

(** The generated file of a package registers a client of service [s] in registry [x] exactly when the package
    declares [x] as a registry of an interface that [s] implements (its own interface, or one whose methods it
    all has); the client is registered under the service's name, and is the node of that service. *)
Theorem C81_registers_exactly :
  ∀ W L ms rs ss w st, setting W L ms rs ss → generate w rs ss = Done st → ∀ pk reg,
    reg ∈ file_of st.2 pk ↔
    ∃ m p s t, declares_registry W ms m p (rg_var reg) t ∧ tp_name p = pk ∧ suiting L ss t s ∧
      reg = Registration (rg_var reg) (ts_name s) (ts_node s) t
              (match t with TUser q n => match L q n with Some j => fi_is_struct j | None => false end | _ => false end).
Proof. intros. by eapply registers_exactly. Qed.
Print Assumptions C81_registers_exactly.

(** A file is generated exactly for the packages that have something to register, and their modules are in the
    workspace. *)
Theorem C81_files :
  ∀ W L ms rs ss w st, setting W L ms rs ss → generate w rs ss = Done st →
    (∀ pk, is_Some (st.2 !! pk) ↔ file_of st.2 pk ≠ []) ∧
    (∀ m p x t, declares_registry W ms m p x t → is_Some (st.2 !! tp_name p) → ws_dirs st.1 !! tm_path m = Some (tm_dir m)).
Proof. intros W L ms rs ss w st Hs Hg. split; [intros; by eapply file_nonempty|intros; by eapply module_copied]. Qed.
Print Assumptions C81_files.

(** Generation does not panic, and succeeds if the services have Go interfaces and the directory names of the
    modules do not clash. *)
Theorem C81_generates :
  ∀ W L ms rs ss w, setting W L ms rs ss → generate w rs ss ≠ Panic ∧
    (no_clash w ms → (∀ s, s ∈ ss → is_Some (ts_iface s)) → ∃ st, generate w rs ss = Done st).
Proof. intros. split; [by eapply no_panic|intros; by eapply generates]. Qed.
Print Assumptions C81_generates.

(** After compilation a test that asks a registry for its service gets a client of a service under test that
    suits the registry, if there is one, as long as the test's own init code comes after the generated file,
    does not call SetDefault, and does not register under a tested service's name; ... *)
Theorem C81_tests_reach_application :
  ∀ W L ms rs ss w st m p x t, setting W L ms rs ss → generate w rs ss = Done st →
    declares_registry W ms m p x t → defers p x ss → (∃ s, suiting L ss t s) →
    ∃ s, suiting L ss t s ∧ tested st p x = Some (SClient (ts_node s)).
Proof. intros. by eapply tests_reach. Qed.
Print Assumptions C81_tests_reach_application.

(** ... so it is always the same one if only one suits. *)
Theorem C81_one_suiting_service :
  ∀ W L ms rs ss w st m p x t s, setting W L ms rs ss → generate w rs ss = Done st →
    declares_registry W ms m p x t → defers p x ss → suiting L ss t s → (∀ s', suiting L ss t s' → s' = s) →
    tested st p x = Some (SClient (ts_node s)).
Proof.
  intros W L ms rs ss w st m p x t s Hset Hg Hd Hdef Hs Hu.
  destruct (tests_reach W L ms rs ss Hset w st m p x t Hg Hd Hdef) as (s' & Hs' & ->); [eauto|]. by rewrite (Hu _ Hs').
Qed.
Print Assumptions C81_one_suiting_service.

(** A registry that no service under test suits behaves as it did before compilation. *)
Theorem C81_other_registries_unchanged :
  ∀ W L ms rs ss w st m p x t, setting W L ms rs ss → generate w rs ss = Done st →
    declares_registry W ms m p x t → go_order (tp_files p) →
    (∀ f, f ∈ tp_files p → f_name (tf_src f) ≠ clients_file) → (∀ s, ¬ suiting L ss t s) →
    tested st p x = tested_locally p x.
Proof. intros. by eapply others_unchanged. Qed.
Print Assumptions C81_other_registries_unchanged.

(** ** A test module *)
Definition W0 : world := World (last_from "") (λ _ _, False).
Definition imps : list (option string * string) := [(None, "testing"); (None, "shop/user"); (None, "shop/cart"); (None, "bp/registry")].
Definition nosig : signature := Sig [] [] [].
Definition tsig : signature := Sig [] [(["t"], EStar (ESelector (EIdent "testing") "T"))] [].
Definition src (name test : string) : file := File name imps [DFunc None "init" nosig; DFunc None test tsig].
Definition user_type : expr := ESelector (EIdent "user") "UserService".
Definition cart_type : expr := ESelector (EIdent "cart") "CartService".
Definition user_file (name : string) (init : list iop) : tfile :=
  TFile (src name "TestUser") [VarSpec ["jon"] [VOther]; VarSpec ["userRegistry"] [registry_value user_type]] init.
Definition cart_file : tfile :=
  TFile (src "cart_test.go" "TestCart") [VarSpec ["cartRegistry"] [registry_value cart_type]] [IRegister "cartRegistry" "local" 1].
Definition pkg_with (f : tfile) : tpackage := TPackage "shop/tests" "tests" [cart_file; f] [f; cart_file] [cart_file; f].
Definition mod_with (f : tfile) : tmodule := TModule "shop/tests" "tests" [pkg_with f].
Definition login : gofunc := Func "Login" [("name", TBasic "string")] [("", TUser "shop/user" "User")].
Definition health : gofunc := Func "Health" [] [("", TBasic "string")].
Definition get_cart : gofunc := Func "GetCart" [("id", TBasic "string")] [("", TSlice (TBasic "string"))].
Definition L0 : lookup_iface := λ pk n,
  if bool_decide (pk = "shop/user" ∧ n = "UserService") then Some (FoundIface false [("Login", login)])
  else if bool_decide (pk = "shop/cart" ∧ n = "CartService") then Some (FoundIface false [("GetCart", get_cart)])
  else if bool_decide (pk = "shop/user" ∧ n = "UserServiceImpl") then Some (FoundIface true [("Login", login)])
  else None.
(** user_service has a health check added, so its interface is a different one. *)
Definition user_svc (name : string) : tservice :=
  TService name (name +:+ ".client") (Some (SIface "healthcheck" "UserService_HealthChecker" {["Login" := login; "Health" := health]})).
Definition w0 : workspace := Workspace {["shop/workflow" := "workflow"]} {["workflow" := "shop/workflow"]}.

Lemma denotes_in pkg fs f x p n : f_imports f = imps → (x, p) ∈ [("testing", "testing"); ("user", "shop/user"); ("cart", "shop/cart")] →
  denotes W0 pkg fs f [] (ESelector (EIdent x) n) (TUser p n).
Proof.
  intros Hf Hx. rewrite !elem_of_cons, elem_of_nil in Hx.
  destruct Hx as [[= -> ->]|[[= -> ->]|[[= -> ->]|[]]]]; apply den_sel; try done; right; rewrite Hf; (split; [|done]);
    unfold imps; set_solver.
Qed.
Lemma src_acceptable pkg n1 t1 n2 t2 : t1 ≠ t2 → acceptable W0 pkg [src n1 t1; src n2 t2].
Proof.
  intros Hne. set (fs := [src n1 t1; src n2 t2]).
  assert (∀ f, f ∈ fs → f_imports f = imps) as Himp.
  { intros f Hf. unfold fs in Hf. rewrite !elem_of_cons, elem_of_nil in Hf. by destruct Hf as [->|[->|[]]]. }
  assert (∀ f d, f ∈ fs → d ∈ f_decls f → d = DFunc None "init" nosig ∨ f = src n1 t1 ∧ d = DFunc None t1 tsig ∨
            f = src n2 t2 ∧ d = DFunc None t2 tsig) as Hall.
  { intros f d Hf Hd. unfold fs in Hf. rewrite !elem_of_cons, elem_of_nil in Hf. destruct Hf as [->|[->|[]]]; simpl in Hd;
      rewrite !elem_of_cons, elem_of_nil in Hd; naive_solver. }
  assert (∀ f n tps b, ¬ declares_type fs f n tps b) as Hty.
  { intros f n tps b [Hf Hd]. destruct (Hall _ _ Hf Hd) as [?|[[_ ?]|[_ ?]]]; done. }
  assert (∀ f n s r, f ∈ fs → DFunc r n s ∈ f_decls f → r = None ∧ sg_tparams s = []) as Hfn.
  { intros f n s r Hf Hd. by destruct (Hall _ _ Hf Hd) as [E|[[_ E]|[_ E]]]; simplify_eq. }
  assert (∀ f x p, f ∈ fs → imports_as W0 f x p → (None, p) ∈ imps ∧ x = last_from "" p) as Hia.
  { intros f x p Hf [H|[H ->]]; rewrite (Himp _ Hf) in H; [|done]. unfold imps in H. by rewrite !elem_of_cons, elem_of_nil in H; naive_solver. }
  split_and!.
  - split_and!.
    + intros n f tps b f' tps' b' _ H. by destruct (Hty _ _ _ _ H).
    + intros f tps i ms n s s' _ H. by destruct (Hty _ _ _ _ H).
    + intros st n f s f' s' _ [Hf [H|H]]; by destruct (Hfn _ _ _ _ Hf H).
    + intros n f s f' s' _ Hin [Hf H] [Hf' H'].
      destruct (Hall _ _ Hf H) as [E|[[-> E]|[-> E]]]; simplify_eq;
        destruct (Hall _ _ Hf' H') as [E'|[[-> E']|[-> E']]]; simplify_eq; done.
  - split_and!.
    + intros f n tps ms m s H. by destruct (Hty _ _ _ _ H).
    + intros f n tps es e H. by destruct (Hty _ _ _ _ H).
    + intros f r n s Hf Hd. pose proof (Himp f Hf) as Hi. intros ns e He.
      assert (s = nosig ∨ s = tsig) as [->| ->].
      { destruct (Hall _ _ Hf Hd) as [E|[[_ E]|[_ E]]]; simplify_eq; auto. }
      * by apply elem_of_nil in He.
      * apply elem_of_list_singleton in He as [= -> ->]. eexists. apply den_star. apply denotes_in; [done|by left].
  - split_and!.
    + intros f n tps ms e H. by destruct (Hty _ _ _ _ H).
    + intros f n tps ms m s H. by destruct (Hty _ _ _ _ H).
    + intros f r n s Hf Hd. by destruct (Hfn _ _ _ _ Hf Hd).
    + intros f r n s Hf Hd. by destruct (Hfn _ _ _ _ Hf Hd).
  - split.
    + intros n _. split; [|by intros f p _ [_ []]]. intros (f & tps & b & H). by destruct (Hty _ _ _ _ H).
    + intros f n tps b x H. by destruct (Hty _ _ _ _ H).
  - apply Forall_forall. intros f Hf. split_and!.
    + intros p Hp. rewrite (Himp f Hf) in Hp. unfold imps in Hp. rewrite !elem_of_cons, elem_of_nil in Hp.
      destruct Hp as [[= ->]|[[= ->]|[[= ->]|[[= ->]|[]]]]]; by vm_compute.
    + intros x p q _ H1 H2. apply Hia in H1 as [H1 ->], H2 as [H2 E]; [|done..]. unfold imps in H1, H2.
      rewrite !elem_of_cons, elem_of_nil in H1, H2.
      destruct H1 as [[= ->]|[[= ->]|[[= ->]|[[= ->]|[]]]]]; destruct H2 as [[= ->]|[[= ->]|[[= ->]|[[= ->]|[]]]]]; try done; by vm_compute in E.
    + unfold dot_imports. rewrite (Himp f Hf). vm_compute. lia.
Qed.
Lemma user_package n init : test_package W0 (pkg_with (user_file n init)).
Proof.
  split_and!.
  - apply (src_acceptable "shop/tests" "cart_test.go" "TestCart" n "TestUser"). done.
  - apply Permutation_swap.
  - done.
  - apply has_suffix_false; by vm_compute.
  - intros f v f' v' x Hf Hv Hf' Hv' Hx Hx' _. simpl in Hf, Hf'.
    rewrite !elem_of_cons, elem_of_nil in Hf, Hf'. destruct Hf as [->|[->|[]]], Hf' as [->|[->|[]]]; simpl in Hv, Hv';
      rewrite !elem_of_cons, elem_of_nil in Hv; rewrite !elem_of_cons, elem_of_nil in Hv';
      repeat (match goal with H : _ ∨ _ |- _ => destruct H end); subst; simpl in *; try done;
      apply elem_of_list_singleton in Hx, Hx'; by simplify_eq.
  - intros f v T Hf Hv HT. simpl in Hf. rewrite !elem_of_cons, elem_of_nil in Hf. destruct Hf as [->|[->|[]]]; simpl in Hv;
      rewrite !elem_of_cons, elem_of_nil in Hv.
    + destruct Hv as [->|[]]. injection HT as <-. exists "cartRegistry". eexists. split; [done|]. split; [done|].
      apply denotes_in; [done|]. right. right. left.
    + destruct Hv as [->|[->|[]]]; [done|]. injection HT as <-. exists "userRegistry". eexists. split; [done|]. split; [done|].
      apply denotes_in; [done|]. right. left.
Qed.
Lemma user_modules n init : test_modules W0 [mod_with (user_file n init)].
Proof.
  split.
  - intros m p ->%elem_of_list_singleton ->%elem_of_list_singleton. apply user_package.
  - intros m p m' p' ->%elem_of_list_singleton ->%elem_of_list_singleton ->%elem_of_list_singleton ->%elem_of_list_singleton. done.
Qed.
Lemma L0_resolved : resolved_ifaces L0.
Proof.
  intros pk n j m f HL Hm x t Ht. unfold L0 in HL. repeat case_bool_decide; try done; simplify_eq; simpl in Hm;
    apply elem_of_list_singleton in Hm as [= -> ->]; simpl in Ht; rewrite !elem_of_cons, elem_of_nil in Ht;
    destruct Ht as [[= -> ->]|[[= -> ->]|[]]]; done.
Qed.
Lemma demo_setting n init ss : NoDup (ts_name <$> ss) →
  setting W0 L0 [mod_with (user_file n init)] (found L0 [mod_with (user_file n init)]) ss.
Proof. intros H. split_and!; [apply user_modules|apply L0_resolved|done|done]. Qed.
Lemma demo_declares n init : declares_registry W0 [mod_with (user_file n init)] (mod_with (user_file n init)) (pkg_with (user_file n init))
    "userRegistry" (TUser "shop/user" "UserService").
Proof.
  split; [by left|]. split; [by left|]. exists (user_file n init), user_type. split; [right; by left|]. split; [right; by left|].
  apply denotes_in; [done|]. right. left.
Qed.
Lemma user_suits name : suits L0 (SIface "healthcheck" "UserService_HealthChecker" {["Login" := login; "Health" := health]}) (TUser "shop/user" "UserService") ∧
  suiting L0 [user_svc name] (TUser "shop/user" "UserService") (user_svc name).
Proof.
  assert (suits L0 (SIface "healthcheck" "UserService_HealthChecker" {["Login" := login; "Health" := health]}) (TUser "shop/user" "UserService")) as H.
  { right. do 3 eexists. split; [done|]. split; [by vm_compute|]. intros m f [= -> ->]%elem_of_list_singleton.
    exists login. split; [apply (bool_decide_unpack _); by vm_compute|done]. }
  split; [done|]. split; [by left|]. eexists. done.
Qed.

(** A service with a health check added is still tested through the registry of its original interface; the cart
    registry, whose service is not under test, keeps its local instance. *)
Definition local_init : list iop := [IRegister "userRegistry" "local" 0].
Definition demo_mod : tmodule := mod_with (user_file "user_test.go" local_init).
Definition demo_pkg : tpackage := pkg_with (user_file "user_test.go" local_init).
Lemma demo_defers ss : "local" ∉ ts_name <$> ss → defers demo_pkg "userRegistry" ss.
Proof.
  intros Hl f o Hf Ho Ha. simpl in Hf. rewrite !elem_of_cons, elem_of_nil in Hf. destruct Hf as [->|[->|[]]]; simpl in Ho.
  - apply elem_of_list_singleton in Ho as ->. destruct Ha as [(n & k & [=])|(n & [=])].
  - apply elem_of_list_singleton in Ho as ->. split; [apply before_clients_false; by vm_compute|]. by do 2 eexists.
Qed.
Example C81_nonvacuous :
  ∃ st, setting W0 L0 [demo_mod] (found L0 [demo_mod]) [user_svc "user_service"] ∧
    no_clash w0 [demo_mod] ∧ generate w0 (found L0 [demo_mod]) [user_svc "user_service"] = Done st ∧
    declares_registry W0 [demo_mod] demo_mod demo_pkg "userRegistry" (TUser "shop/user" "UserService") ∧
    suiting L0 [user_svc "user_service"] (TUser "shop/user" "UserService") (user_svc "user_service") ∧
    defers demo_pkg "userRegistry" [user_svc "user_service"] ∧ go_order (tp_files demo_pkg) ∧
    tested_locally demo_pkg "userRegistry" = Some (SLocal 0) ∧
    tested st demo_pkg "userRegistry" = Some (SClient "user_service.client") ∧
    tested st demo_pkg "cartRegistry" = Some (SLocal 1).
Proof.
  eexists. split; [apply demo_setting; apply (bool_decide_unpack _); by vm_compute|]. split; [|split; [by vm_compute|]].
  { split.
    - intros m ->%elem_of_list_singleton. split; left; apply (bool_decide_unpack _); by vm_compute.
    - intros m m' ->%elem_of_list_singleton ->%elem_of_list_singleton. done. }
  split; [apply demo_declares|]. split; [apply user_suits|]. split; [|split; [|split_and!; by vm_compute]].
  - apply demo_defers. apply (bool_decide_unpack _); by vm_compute.
  - exists [], (tp_files demo_pkg). split; [done|]. split; [set_solver|]. split.
    + intros f Hf. simpl in Hf. rewrite !elem_of_cons, elem_of_nil in Hf. destruct Hf as [->|[->|[]]]; apply has_suffix_spec; by vm_compute.
    + split; repeat constructor.
Qed.

(** ** What does not hold *)

(** With two services under test that suit a registry, which of them a test reaches depends on map iteration. *)
Theorem C81_deterministic_refuted :
  ¬ (∀ W L ms rs ss ss' w st st' m p x t, setting W L ms rs ss → ss' ≡ₚ ss → defers p x ss →
       generate w rs ss = Done st → generate w rs ss' = Done st' → declares_registry W ms m p x t →
       tested st p x = tested st' p x).
Proof.
  intros H.
  assert (∃ st st', generate w0 (found L0 [demo_mod]) [user_svc "a"; user_svc "b"] = Done st ∧
    generate w0 (found L0 [demo_mod]) [user_svc "b"; user_svc "a"] = Done st' ∧
    tested st demo_pkg "userRegistry" ≠ tested st' demo_pkg "userRegistry") as (st & st' & H1 & H2 & Hne).
  { do 2 eexists. split; [by vm_compute|]. split; [by vm_compute|]. by vm_compute. }
  apply Hne. eapply (H W0 L0 [demo_mod] (found L0 [demo_mod]) [user_svc "a"; user_svc "b"]);
    [|apply Permutation_swap| |exact H1|exact H2|apply demo_declares].
  - apply demo_setting. apply (bool_decide_unpack _); by vm_compute.
  - apply demo_defers. apply (bool_decide_unpack _); by vm_compute.
Qed.
Print Assumptions C81_deterministic_refuted.

(** Each condition on the test's own init code is needed: local instances registered under the name of the
    service, in a file that comes before blueprint_clients.go, or made the default, are tested instead of the
    application. *)
Definition init_cases : list (string * list iop) :=
  [("user_test.go", [IRegister "userRegistry" "user_service" 0]);
   ("a_registries.go", [IRegister "userRegistry" "local" 0]);
   ("user_test.go", [IRegister "userRegistry" "local" 0; ISetDefault "userRegistry" "local"])].
Theorem C81_local_code_is_overridden_refuted :
  ∀ n init, (n, init) ∈ init_cases →
    ∃ st, setting W0 L0 [mod_with (user_file n init)] (found L0 [mod_with (user_file n init)]) [user_svc "user_service"] ∧
      generate w0 (found L0 [mod_with (user_file n init)]) [user_svc "user_service"] = Done st ∧
      declares_registry W0 [mod_with (user_file n init)] (mod_with (user_file n init)) (pkg_with (user_file n init))
        "userRegistry" (TUser "shop/user" "UserService") ∧
      suiting L0 [user_svc "user_service"] (TUser "shop/user" "UserService") (user_svc "user_service") ∧
      tested st (pkg_with (user_file n init)) "userRegistry" = Some (SLocal 0).
Proof.
  intros n init Hin. eexists. split; [apply demo_setting; apply (bool_decide_unpack _); by vm_compute|].
  unfold init_cases in Hin. rewrite !elem_of_cons, elem_of_nil in Hin.
  destruct Hin as [[= -> ->]|[[= -> ->]|[[= -> ->]|[]]]]; (split; [by vm_compute|]); (split; [apply demo_declares|]);
    (split; [apply user_suits|]); by vm_compute.
Qed.
Print Assumptions C81_local_code_is_overridden_refuted.

(** A registry is only found if it has a declaration of its own and the registry package is not renamed: the
    registries of [var a, b = registry.NewServiceRegistry[A](..), registry.NewServiceRegistry[B](..)], or of a
    file that imports the package under another name, are missed. *)
Definition odd_file (v : varspec) : tfile := TFile (src "user_test.go" "TestUser") [v] [].
Definition odd_vars : list varspec :=
  [VarSpec ["userRegistry"; "otherRegistry"] [registry_value user_type; registry_value user_type];
   VarSpec ["userRegistry"] [VCall "reg" "NewServiceRegistry" user_type]].
Theorem C81_registries_are_found_refuted :
  ∀ v, v ∈ odd_vars → acceptable W0 "shop/tests" (sources (pkg_with (odd_file v))) ∧
    ¬ ∃ r, r ∈ found L0 [mod_with (odd_file v)] ∧ fr_var r ∈ vs_names v.
Proof.
  intros v Hv. split; [apply (src_acceptable "shop/tests" "cart_test.go" "TestCart" "user_test.go" "TestUser"); done|].
  intros (r & Hr & Hx). unfold odd_vars in Hv. rewrite !elem_of_cons, elem_of_nil in Hv.
  assert (fr_var <$> found L0 [mod_with (odd_file v)] = ["cartRegistry"]) as Hf by (destruct Hv as [->|[->|[]]]; by vm_compute).
  assert (fr_var r ∈ ["cartRegistry"]) as H by (rewrite <- Hf; apply elem_of_list_fmap; eauto).
  apply elem_of_list_singleton in H. rewrite H in Hx. revert Hx.
  destruct Hv as [->|[->|[]]]; refine (bool_decide_unpack (¬ _) _); by vm_compute.
Qed.
Print Assumptions C81_registries_are_found_refuted.

(** A method of a type that is not a struct, in one of the test files, hides the registries of that file and of
    those that map iteration delivers after it. *)
Definition helper_file : tfile := TFile (File "helper_test.go" imps
  [DType "names" [] BOther; DFunc (Some (EIdent "names")) "Len" (Sig [] [] [([], EIdent "int")])])
  [VarSpec ["helperRegistry"] [registry_value user_type]] [].
Definition helper_pkg (fs : list tfile) : tpackage :=
  TPackage "shop/tests" "tests" [cart_file; helper_file; user_file "user_test.go" local_init] fs fs.
Theorem C81_found_in_every_order_refuted :
  let found_in fs := fr_var <$> found_package L0 demo_mod (helper_pkg fs) in
  found_in [helper_file; cart_file; user_file "user_test.go" local_init] = [] ∧
  found_in [cart_file; helper_file; user_file "user_test.go" local_init] = ["cartRegistry"] ∧
  found_in [cart_file; user_file "user_test.go" local_init; helper_file] ≡ₚ ["cartRegistry"; "userRegistry"].
Proof. split; [by vm_compute|]. split; [by vm_compute|]. apply (bool_decide_unpack _); by vm_compute. Qed.
Print Assumptions C81_found_in_every_order_refuted.

(** An interface that embeds another one, in one of the files of a package, hides all registries of the package,
    in every order of its files, although Go accepts it. *)
Theorem C81_embedding_refuted :
  ∀ L m p f n tps ms e, tp_order1 p ≡ₚ tp_files p → f ∈ tp_files p →
    DType n tps (BInterface ms) ∈ f_decls (tf_src f) → MEmbedded e ∈ ms → found_package L m p = [].
Proof. intros L m p f n tps ms e Hp Hf Hd He. eapply load_test_hidden; [rewrite Hp; exact Hf|exact Hd|exact He]. Qed.
Print Assumptions C81_embedding_refuted.
Definition embed_file (ms : list member) : tfile := TFile (File "helper_test.go" imps [DType "both" [] (BInterface ms)]) [] [].
Definition embed_pkg (ms : list member) : tpackage :=
  let fs := [cart_file; embed_file ms; user_file "user_test.go" local_init] in TPackage "shop/tests" "tests" fs fs fs.
Example C81_embedding_nonvacuous :
  (fr_var <$> found_package L0 demo_mod (embed_pkg [MMethod "Extra" nosig])) ≡ₚ ["cartRegistry"; "userRegistry"] ∧
  found_package L0 demo_mod (embed_pkg [MMethod "Extra" nosig; MEmbedded user_type]) = [].
Proof. split; [apply (bool_decide_unpack _); by vm_compute|by vm_compute]. Qed.

(** The registries of a package called ..._test are never found: external test packages are not supported. *)
Theorem C81_test_packages_refuted :
  ∀ L m p, ends_in "_test" (tp_short p) → found_package L m p = [].
Proof. intros L m p H%has_suffix_spec. unfold found_package. by rewrite H. Qed.
Print Assumptions C81_test_packages_refuted.

(** A registry of a struct type that implements a service is matched too, and the file generated for it does not
    compile, so that no test of the package runs. *)
Definition struct_file : tfile :=
  TFile (src "user_test.go" "TestUser") [VarSpec ["userRegistry"] [registry_value (ESelector (EIdent "user") "UserServiceImpl")]] local_init.
Theorem C81_compiles_refuted :
  ¬ (∀ W L ms rs ss w st p, setting W L ms rs ss → generate w rs ss = Done st → compiles (file_of st.2 (tp_name p)) = true).
Proof.
  intros H. specialize (H W0 L0 [mod_with struct_file] (found L0 [mod_with struct_file]) [user_svc "user_service"] w0).
  assert (∃ st, generate w0 (found L0 [mod_with struct_file]) [user_svc "user_service"] = Done st ∧
    compiles (file_of st.2 "shop/tests") = false) as (st & Hg & Hc) by (eexists; split; by vm_compute).
  assert (setting W0 L0 [mod_with struct_file] (found L0 [mod_with struct_file]) [user_svc "user_service"]) as Hs.
  { split_and!; [|apply L0_resolved|done|apply (bool_decide_unpack _); by vm_compute]. split.
    - intros m p ->%elem_of_list_singleton ->%elem_of_list_singleton. split_and!.
      + apply (src_acceptable "shop/tests" "cart_test.go" "TestCart" "user_test.go" "TestUser"). done.
      + apply Permutation_swap.
      + done.
      + apply has_suffix_false; by vm_compute.
      + intros f v f' v' x Hf Hv Hf' Hv' Hx Hx' _. simpl in Hf, Hf'.
        rewrite !elem_of_cons, elem_of_nil in Hf, Hf'. destruct Hf as [->|[->|[]]], Hf' as [->|[->|[]]]; simpl in Hv, Hv';
          apply elem_of_list_singleton in Hv as ->; apply elem_of_list_singleton in Hv' as ->; simpl in *;
          apply elem_of_list_singleton in Hx, Hx'; by simplify_eq.
      + intros f v T Hf Hv HT. simpl in Hf. rewrite !elem_of_cons, elem_of_nil in Hf. destruct Hf as [->|[->|[]]]; simpl in Hv;
          apply elem_of_list_singleton in Hv as ->; injection HT as <-; do 2 eexists; (split; [done|]); (split; [done|]);
          apply denotes_in; try done; [right; right; left|right; left].
    - intros m p m' p' ->%elem_of_list_singleton ->%elem_of_list_singleton ->%elem_of_list_singleton ->%elem_of_list_singleton. done. }
  specialize (H st (pkg_with struct_file) Hs Hg). simpl in H. by rewrite Hc in H.
Qed.
Print Assumptions C81_compiles_refuted.

(** Two modules with tests whose directories have the same name cannot be used together, though either can be
    used alone. *)
Theorem C81_modules_combine_refuted :
  ¬ (∀ L m m' ss w st st', tm_path m ≠ tm_path m' → generate w (found L [m]) ss = Done st → generate w (found L [m']) ss = Done st' →
       ∃ st'', generate w (found L [m; m']) ss = Done st'').
Proof.
  intros H.
  set (p' := TPackage "other/tests" "tests" [user_file "user_test.go" local_init] [user_file "user_test.go" local_init] [user_file "user_test.go" local_init]).
  assert (∃ st st', generate w0 (found L0 [demo_mod]) [user_svc "user_service"] = Done st ∧
    generate w0 (found L0 [TModule "other/tests" "tests" [p']]) [user_svc "user_service"] = Done st') as (st & st' & H1 & H2).
  { do 2 eexists. split; by vm_compute. }
  destruct (H L0 demo_mod (TModule "other/tests" "tests" [p']) [user_svc "user_service"] w0 st st' ltac:(done) H1 H2) as (st'' & H3).
  by vm_compute in H3.
Qed.
Print Assumptions C81_modules_combine_refuted.

(** Comparing methods that have a parameter of a generic type panics: the type argument is not parsed, and its
    Equals is called on nil. *)
Definition put_box : gofunc := Func "Put" [("b", TGeneric (TUser "shop/user" "Box") TNil)] [].
Theorem C81_generic_types_refuted :
  ¬ (∀ W L ms rs ss w, test_modules W ms → rs ≡ₚ found L ms → NoDup (ts_name <$> ss) → generate w rs ss ≠ Panic).
Proof.
  intros H. apply (H W0 (λ _ _, Some (FoundIface false [("Put", put_box)])) [demo_mod]
    (found (λ _ _, Some (FoundIface false [("Put", put_box)])) [demo_mod])
    [TService "s" "s.client" (Some (SIface "shop/store" "Store" {["Put" := put_box]}))] w0).
  - apply user_modules.
  - done.
  - apply (bool_decide_unpack _); by vm_compute.
  - by vm_compute.
Qed.
Print Assumptions C81_generic_types_refuted.
